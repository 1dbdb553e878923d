(** * Critical paths of the job shop example: the depth first search computes longest paths *)
From Verif Require Export JsspSchedProofs.
Open Scope nat_scope.

Section Graph.
Variables (n : nat) (dur : nat -> N) (mach jpred jsucc : nat -> nat) (zedges : list edge).
Hypothesis n_pos : 1 <= n.
Hypothesis zedges_ne : zedges <> [].
Hypothesis zedges_ok : forall e, e ∈ zedges -> edge_kind_of e = JobSucc /\ 1 <= neigh_id e <= n.
Hypothesis zedges_first : forall i, 1 <= i <= n -> jpred i = 0 -> exists e, e ∈ zedges /\ neigh_id e = i.
Hypothesis jpred_lt : forall i, 1 <= i <= n -> jpred i < i.
Hypothesis jsucc_gt : forall i, 1 <= i <= n -> i < jsucc i <= n + 1.
Hypothesis jsucc_jpred : forall i, 1 <= i <= n -> jpred i <> 0 -> jsucc (jpred i) = i.
Hypothesis jsucc_last : jsucc n = n + 1.
Notation total := (total dur).
Hypothesis total_small : (total (seq 1 n) <= 2 ^ 50)%N.
Notation static := (static n dur mach jpred zedges).
Notation linked := (linked mach jsucc).

(** ** The graph of an order of the operations on each machine *)
Definition orders (chain : nat -> list nat) : Prop := forall m, NoDup (chain m) /\ forall i, i ∈ chain m <-> 1 <= i <= n /\ mach i = m.
Definition succs (chain : nat -> list nat) (v : nat) : list edge :=
  if decide (v = 0) then zedges
  else if decide (v <= n) then Edge (jsucc v) JobSucc :: machine_edge (next (chain (mach v)) v)
  else [].
Definition vdur (v : nat) : N := if decide (1 <= v <= n) then dur v else 0%N.
Definition ranked (chain : nat -> list nat) (rank : nat -> nat) : Prop := forall v e, e ∈ succs chain v -> rank (neigh_id e) < rank v.
Definition shaped (chain : nat -> list nat) (ops : list operation) : Prop :=
  length ops = n + 2 /\ (forall i o, ops !! i = Some o -> static i o) /\ (forall i o, 1 <= i <= n -> ops !! i = Some o -> linked chain i o).

Lemma next_in l i j : next l i = Some j -> i ∈ l /\ j ∈ l.
Proof.
  induction l as [|x l IH]; cbn; [discriminate|]. destruct (decide (x = i)) as [->|Hx].
  - intros H. split; [left|]. destruct l; [discriminate|]. injection H as ->. right; left.
  - intros [H1 H2]%IH. split; right; assumption.
Qed.
Lemma succs_range chain v e : orders chain -> e ∈ succs chain v -> 1 <= neigh_id e <= n + 1 /\ v <= n /\ (neigh_id e = n + 1 -> edge_kind_of e = JobSucc).
Proof.
  intros O He. unfold succs in He. destruct (decide (v = 0)) as [->|H0]; [destruct (zedges_ok e He) as [-> ?]; split; [lia|]; split; [lia|reflexivity]|].
  destruct (decide (v <= n)) as [Hv|Hv]; [|apply elem_of_nil in He; tauto].
  apply elem_of_cons in He as [->|He]; cbn; [pose proof (jsucc_gt v ltac:(lia)); split; [lia|]; split; [lia|reflexivity]|].
  destruct (next (chain (mach v)) v) as [w|] eqn:En; cbn in He; [|apply elem_of_nil in He; tauto]. apply elem_of_list_singleton in He as ->. cbn.
  apply next_in in En as [_ Hw]. apply O in Hw as [Hw _]. split; [lia|]. split; [lia|]. lia.
Qed.
Lemma succs_ne chain v : v <= n -> succs chain v <> [].
Proof. intros Hv. unfold succs. destruct (decide (v = 0)); [exact zedges_ne|]. rewrite decide_True by exact Hv. discriminate. Qed.
Lemma succs_sink chain : succs chain (n + 1) = [].
Proof. unfold succs. rewrite !decide_False by lia. reflexivity. Qed.
Lemma shaped_edges chain ops v o : shaped chain ops -> ops !! v = Some o -> op_edges o = succs chain v /\ op_duration o = vdur v /\ op_id o = v.
Proof.
  intros (L & S & Lk) Ho. assert (Hv : v < n + 2) by (rewrite <- L; apply lookup_lt_Some in Ho; exact Ho).
  destruct (S v o Ho) as (Eid & S1 & S2 & S3). unfold succs, vdur. destruct (decide (v = 0)) as [->|H0].
  - rewrite (decide_False (P := 1 <= 0 <= n)) by lia. destruct (S2 eq_refl). auto.
  - destruct (decide (v <= n)) as [Hle|Hgt].
    + rewrite decide_True by lia. destruct (Lk v o ltac:(lia) Ho) as [-> _]. destruct (S1 ltac:(lia)) as (-> & _). auto.
    + rewrite decide_False by lia. destruct (S3 ltac:(lia)) as (-> & _ & -> & _). auto.
Qed.

(** ** Longest distances to the sink *)
Fixpoint max_dist (D : nat -> N) (es : list edge) : N := match es with [] => 0%N | e :: es => N.max (D (neigh_id e)) (max_dist D es) end.
Definition solves (chain : nat -> list nat) (D : nat -> N) : Prop := forall v, D v = (vdur v + max_dist D (succs chain v))%N.
Lemma max_dist_ge D es e : e ∈ es -> (D (neigh_id e) <= max_dist D es)%N.
Proof. induction es as [|e' es IH]; intros H; [apply elem_of_nil in H; tauto|]. cbn. apply elem_of_cons in H as [->|H]; [lia|]. specialize (IH H). lia. Qed.
Lemma max_dist_in D es : es <> [] -> exists e, e ∈ es /\ max_dist D es = D (neigh_id e).
Proof.
  induction es as [|e es IH]; intros H; [congruence|]. cbn. destruct es as [|e2 es2]; [exists e; split; [left|cbn; lia]|].
  destruct IH as (e' & He' & E); [discriminate|]. rewrite E. destruct (N.max_spec (D (neigh_id e)) (D (neigh_id e'))) as [[_ ->]|[_ ->]].
  - exists e'. split; [right; exact He'|reflexivity].
  - exists e. split; [left|reflexivity].
Qed.
Lemma max_dist_ext D D' es : (forall e, e ∈ es -> D (neigh_id e) = D' (neigh_id e)) -> max_dist D es = max_dist D' es.
Proof. induction es as [|e es IH]; intros H; [reflexivity|]. cbn. rewrite (H e) by left. f_equal. apply IH. intros e' He'. apply H. right. exact He'. Qed.
Fixpoint dist_fuel (chain : nat -> list nat) (k : nat) (v : nat) : N :=
  match k with 0 => 0%N | S k => (vdur v + max_dist (dist_fuel chain k) (succs chain v))%N end.
Lemma dist_fuel_indep chain rank : ranked chain rank -> forall k k' v, rank v < k -> rank v < k' -> dist_fuel chain k v = dist_fuel chain k' v.
Proof.
  intros R. induction k as [|k IH]; intros k' v H H'; [lia|]. destruct k' as [|k']; [lia|]. cbn [dist_fuel]. f_equal. apply max_dist_ext. intros e He.
  pose proof (R v e He). apply IH; lia.
Qed.
Definition dist (chain : nat -> list nat) (rank : nat -> nat) (v : nat) : N := dist_fuel chain (S (rank v)) v.
Lemma dist_solves chain rank : ranked chain rank -> solves chain (dist chain rank).
Proof.
  intros R v. unfold dist at 1. cbn [dist_fuel]. f_equal. apply max_dist_ext. intros e He. pose proof (R v e He). apply (dist_fuel_indep chain rank R); lia.
Qed.
Lemma solves_unique chain rank D D' : ranked chain rank -> solves chain D -> solves chain D' -> forall v, D v = D' v.
Proof.
  intros R S S'. assert (G : forall k v, rank v < k -> D v = D' v).
  { induction k as [|k IH]; intros v H; [lia|]. rewrite (S v), (S' v). f_equal. apply max_dist_ext. intros e He. apply IH. pose proof (R v e He). lia. }
  intros v. apply (G (Datatypes.S (rank v))). lia.
Qed.
Lemma edge_dist chain D v e : solves chain D -> e ∈ succs chain v -> (vdur v + D (neigh_id e) <= D v)%N.
Proof. intros S He. rewrite (S v). pose proof (max_dist_ge D _ _ He). lia. Qed.

Lemma total_filter_le (P Q : nat -> Prop) `{forall x, Decision (P x), forall x, Decision (Q x)} l : (forall x, x ∈ l -> P x -> Q x) -> (total (filter P l) <= total (filter Q l))%N.
Proof.
  induction l as [|x l IH]; intros HPQ; [reflexivity|]. assert (IH' := IH ltac:(intros y Hy; apply HPQ; right; exact Hy)).
  rewrite !filter_cons. destruct (decide (P x)) as [HP|HP]; destruct (decide (Q x)) as [HQ|HQ]; unfold JsspSchedProofs.total in *; cbn [foldr]; try lia.
  exfalso. apply HQ, HPQ; [left|exact HP].
Qed.
Lemma total_filter_add (P Q : nat -> Prop) `{forall x, Decision (P x), forall x, Decision (Q x)} l y : (forall x, x ∈ l -> P x -> Q x) -> y ∈ l -> Q y -> ~ P y ->
  (dur y + total (filter P l) <= total (filter Q l))%N.
Proof.
  induction l as [|x l IH]; intros HPQ Hy HQy HPy; [apply elem_of_nil in Hy; tauto|].
  assert (HPQ' : forall z, z ∈ l -> P z -> Q z) by (intros z Hz; apply HPQ; right; exact Hz).
  rewrite !filter_cons. apply elem_of_cons in Hy as [<-|Hy].
  - rewrite (decide_False (P := P y)), (decide_True (P := Q y)) by assumption. pose proof (total_filter_le P Q l HPQ'). unfold JsspSchedProofs.total in *. cbn [foldr]. lia.
  - specialize (IH HPQ' Hy HQy HPy). destruct (decide (P x)) as [HP|HP]; destruct (decide (Q x)) as [HQ|HQ]; unfold JsspSchedProofs.total in *; cbn [foldr]; try lia.
    exfalso. apply HQ, HPQ; [left|exact HP].
Qed.
Lemma total_filter_all (P : nat -> Prop) `{forall x, Decision (P x)} l : (total (filter P l) <= total l)%N.
Proof. induction l as [|x l IH]; [reflexivity|]. rewrite filter_cons. destruct (decide (P x)); unfold JsspSchedProofs.total in *; cbn [foldr]; lia. Qed.
Lemma dist_bound chain rank D : ranked chain rank -> solves chain D -> forall v, (D v <= total (seq 1 n))%N.
Proof.
  intros R S. assert (G : forall k v, rank v < k -> (D v <= total (filter (fun u => (rank u <= rank v)%nat) (seq 1 n)))%N).
  { induction k as [|k IH]; intros v H; [lia|]. rewrite (S v). destruct (decide (succs chain v = [])) as [E|E].
    - rewrite E. cbn [max_dist]. unfold vdur. destruct (decide (1 <= v <= n)) as [Hv|Hv]; [exfalso; apply (succs_ne chain v); [lia|exact E]|]. lia.
    - destruct (max_dist_in D _ E) as (e & He & ->). pose proof (R v e He) as Hr. specialize (IH (neigh_id e) ltac:(lia)).
      unfold vdur. destruct (decide (1 <= v <= n)) as [Hv|Hv].
      + etransitivity; [apply N.add_le_mono_l; exact IH|]. apply (total_filter_add (fun u => rank u <= rank (neigh_id e)) (fun u => rank u <= rank v)); [intros; lia|apply elem_of_seq; lia|lia|lia].
      + rewrite N.add_0_l. etransitivity; [exact IH|]. apply total_filter_le. intros; lia. }
  intros v. etransitivity; [apply (G (Datatypes.S (rank v))); lia|]. apply total_filter_all.
Qed.

(** ** The depth first search *)
(** The last of the longest edges *)
Fixpoint max_from (D : nat -> N) (best : edge) (es : list edge) : edge :=
  match es with [] => best | e :: es => if (D (neigh_id best) <=? D (neigh_id e))%N then max_from D e es else max_from D best es end.
Definition cp_of (D : nat -> N) (es : list edge) : option edge := match es with [] => None | e :: es => Some (max_from D e es) end.
Lemma max_from_spec D es : forall best, (max_from D best es = best \/ max_from D best es ∈ es) /\
  (D (neigh_id best) <= D (neigh_id (max_from D best es)))%N /\ forall e, e ∈ es -> (D (neigh_id e) <= D (neigh_id (max_from D best es)))%N.
Proof.
  induction es as [|e es IH]; intros best; cbn.
  - split; [left; reflexivity|]. split; [lia|]. intros e He. apply elem_of_nil in He. tauto.
  - destruct (N.leb_spec (D (neigh_id best)) (D (neigh_id e))) as [H|H].
    + destruct (IH e) as (A & B & C). split; [right; destruct A as [->|A]; [left|right; exact A]|]. split; [lia|]. intros e' [->|He']%elem_of_cons; auto.
    + destruct (IH best) as (A & B & C). split; [destruct A as [->|A]; [left; reflexivity|right; right; exact A]|]. split; [exact B|]. intros e' [->|He']%elem_of_cons; [lia|auto].
Qed.
Lemma cp_of_spec D es e : cp_of D es = Some e -> e ∈ es /\ D (neigh_id e) = max_dist D es.
Proof.
  destruct es as [|e0 es]; [discriminate|]. cbn [cp_of]. intros [= <-]. destruct (max_from_spec D es e0) as (A & B & C). split.
  - destruct A as [->|A]; [left|right; exact A].
  - apply N.le_antisymm.
    + apply (max_dist_ge D (e0 :: es)). destruct A as [->|A]; [left|right; exact A].
    + destruct (max_dist_in D (e0 :: es)) as (e' & He' & ->); [discriminate|]. apply elem_of_cons in He' as [->|He']; auto.
Qed.

Definition mark (D : nat -> N) (chain : nat -> list nat) (v : nat) (o : operation) : operation := set_critical (cp_of D (succs chain v)) (D v) o.
(** The state of the search: the operations of visited vertices are marked, the others are as in the beginning *)
Definition dfs_state (chain : nat -> list nat) (D : nat -> N) (ops0 ops : list operation) (visited : list bool) : Prop :=
  length ops = n + 2 /\ length visited = n + 2 /\
  (forall v o, ops0 !! v = Some o -> ops !! v = Some (if nth v visited false then mark D chain v o else o)) /\
  (forall v e, nth v visited false = true -> e ∈ succs chain v -> nth (neigh_id e) visited false = true).
Definition grows (vis vis' : list bool) : Prop := forall v, nth v vis false = true -> nth v vis' false = true.

Section Dfs.
Context (chain : nat -> list nat) (rank : nat -> nat) (D : nat -> N) (ops0 : list operation).
Context (O : orders chain) (R : ranked chain rank) (S : solves chain D) (Sh : shaped chain ops0).

Lemma ops0_at v : v < n + 2 -> exists o, ops0 !! v = Some o.
Proof. intros H. destruct Sh as (L & _). apply lookup_lt_is_Some_2. lia. Qed.
Lemma index_visited ops visited v : dfs_state chain D ops0 ops visited -> v < n + 2 -> index visited v = Ok (nth v visited false).
Proof. intros (_ & L & _) H. destruct (lookup_lt_is_Some_2 visited v) as [b Hb]; [lia|]. rewrite (index_eq _ _ _ Hb). rewrite (nth_lookup_Some _ _ _ _ Hb). reflexivity. Qed.
Lemma unvisited_spec ops visited es acc : dfs_state chain D ops0 ops visited -> (forall e, e ∈ es -> neigh_id e < n + 2) ->
  exists l, unvisited_neighbours visited es acc = Ok (l ++ acc) /\ forall w, w ∈ l <-> exists e, e ∈ es /\ w = neigh_id e /\ nth w visited false = false.
Proof.
  intros I. revert acc. induction es as [|e es IH]; intros acc He; cbn [unvisited_neighbours].
  - exists []. split; [reflexivity|]. intros w. split; [intros H; apply elem_of_nil in H; tauto|]. intros (e & H & _). apply elem_of_nil in H. tauto.
  - rewrite (index_visited ops visited) by (auto; apply He; left). cbn [mbind outcome_bind].
    destruct (nth (neigh_id e) visited false) eqn:Ev.
    + destruct (IH acc) as (l & E & H); [intros; apply He; right; assumption|]. exists l. split; [exact E|]. intros w. rewrite H. split.
      * intros (e' & He' & ? & ?). exists e'. split; [right; exact He'|auto].
      * intros (e' & [->|He']%elem_of_cons & -> & Hn); [congruence|]. exists e'. auto.
    + destruct (IH (neigh_id e :: acc)) as (l & E & H); [intros; apply He; right; assumption|]. exists (l ++ [neigh_id e]). rewrite <- app_assoc. split; [exact E|].
      intros w. rewrite elem_of_app, elem_of_list_singleton, H. split.
      * intros [(e' & He' & ? & ?)| ->]; [exists e'; split; [right; exact He'|auto]|exists e; split; [left|auto]].
      * intros (e' & [->|He']%elem_of_cons & -> & Hn); [right; reflexivity|left; exists e'; auto].
Qed.
Lemma max_edge_from_eq ops best es : (forall e, e ∈ best :: es -> exists o, ops !! neigh_id e = Some o /\ op_cp_dist o = D (neigh_id e)) ->
  max_edge_from ops best (D (neigh_id best)) es = Ok (max_from D best es).
Proof.
  revert best. induction es as [|e es IH]; intros best H; cbn [max_edge_from max_from]; [reflexivity|].
  destruct (H e ltac:(right; left)) as (o & Ho & Ed). unfold edge_key. rewrite (index_eq _ _ _ Ho). cbn [mbind outcome_bind]. rewrite Ed.
  destruct (D (neigh_id best) <=? D (neigh_id e))%N; apply IH; intros e' [->|He']%elem_of_cons; apply H; [right; left|right; right; exact He'|left|right; right; exact He'].
Qed.
Lemma max_edge_eq ops es e : (forall e, e ∈ es -> exists o, ops !! neigh_id e = Some o /\ op_cp_dist o = D (neigh_id e)) -> cp_of D es = Some e -> max_edge ops es = Ok e.
Proof.
  destruct es as [|e0 es]; [discriminate|]. cbn [cp_of max_edge]. intros H [= <-]. destruct (H e0 ltac:(left)) as (o & Ho & Ed). unfold edge_key at 1.
  rewrite (index_eq _ _ _ Ho). cbn [mbind outcome_bind]. rewrite Ed. apply max_edge_from_eq. exact H.
Qed.
Lemma nth_insert_true (vis : list bool) v w : v < length vis -> nth w (<[v := true]> vis) false = if decide (w = v) then true else nth w vis false.
Proof.
  intros Hv. destruct (decide (w = v)) as [->|Hw].
  - apply nth_lookup_Some. apply list_lookup_insert. exact Hv.
  - rewrite !nth_lookup. rewrite list_lookup_insert_ne by congruence. reflexivity.
Qed.
(** A vertex all of whose neighbours are visited is marked *)
Lemma finish_spec ops visited v : dfs_state chain D ops0 ops visited -> v < n + 2 -> nth v visited false = false ->
  (forall e, e ∈ succs chain v -> nth (neigh_id e) visited false = true) ->
  exists o ops', ops !! v = Some o /\ op_edges o = succs chain v /\ finish_vertex ops v o = Ok ops' /\ dfs_state chain D ops0 ops' (<[v := true]> visited).
Proof.
  intros (L & Lv & M & Cl) Hv Nv Hn. destruct (ops0_at v Hv) as [o Ho]. pose proof (M v o Ho) as Hov. rewrite Nv in Hov.
  destruct (shaped_edges chain ops0 v o Sh Ho) as (Ee & Ed & _). destruct Sh as (L0 & St & _).
  assert (Hnb : forall e, e ∈ succs chain v -> exists o', ops !! neigh_id e = Some o' /\ op_cp_dist o' = D (neigh_id e)).
  { intros e He. destruct (succs_range chain v e O He) as (Hr & _). destruct (ops0_at (neigh_id e)) as [o' Ho']; [lia|].
    exists (mark D chain (neigh_id e) o'). split; [|reflexivity]. rewrite (M _ _ Ho'), (Hn e He). reflexivity. }
  assert (Fin : finish_vertex ops v o = Ok (<[v := mark D chain v o]> ops)).
  { unfold finish_vertex. rewrite Ee. destruct (succs chain v) as [|e0 es] eqn:Es.
    - unfold mark. rewrite Es. cbn [cp_of]. rewrite (S v), Es. cbn [max_dist]. rewrite N.add_0_r, Ed.
      assert (v = n + 1). { destruct (decide (v <= n)) as [Hle|]; [exfalso; apply (succs_ne chain v Hle Es)|lia]. }
      destruct (St v o Ho) as (_ & _ & _ & Sk). destruct (Sk H) as (_ & _ & _ & ->). reflexivity.
    - rewrite <- Es in *. destruct (cp_of D (succs chain v)) as [e|] eqn:Ecp; [|rewrite Es in Ecp; discriminate].
      rewrite (max_edge_eq ops (succs chain v) e Hnb Ecp). cbn [mbind outcome_bind]. destruct (cp_of_spec D _ _ Ecp) as [He Emx]. destruct (Hnb e He) as (o' & Ho' & Ed').
      rewrite (index_eq _ _ _ Ho'). cbn [mbind outcome_bind]. rewrite Ed', Ed. rewrite uadd_Ok.
      + cbn [mbind outcome_bind]. unfold mark. rewrite Ecp. rewrite (S v), Emx. reflexivity.
      + rewrite Emx, <- (S v). pose proof (dist_bound chain rank D R S v). assert ((2 ^ 50 <= usize_max)%N) by (vm_compute; discriminate). lia. }
  exists o, (<[v := mark D chain v o]> ops). split; [exact Hov|]. split; [exact Ee|]. split; [exact Fin|].
  split; [rewrite insert_length; exact L|]. split; [rewrite insert_length; exact Lv|]. split.
  - intros w ow How. rewrite nth_insert_true by lia. destruct (decide (w = v)) as [->|Hw].
    + rewrite list_lookup_insert by lia. congruence.
    + rewrite list_lookup_insert_ne by congruence. apply M, How.
  - intros w e Hw He. rewrite nth_insert_true in Hw by lia. rewrite nth_insert_true by lia. destruct (decide (neigh_id e = v)) as [|]; [reflexivity|].
    destruct (decide (w = v)) as [->|Hwv]; [apply Hn, He|apply (Cl w e Hw He)].
Qed.

Lemma dfs_vertex : forall r v, rank v < r -> forall ops visited rest, dfs_state chain D ops0 ops visited -> v < n + 2 ->
  exists k ops' visited', dfs_state chain D ops0 ops' visited' /\ grows visited visited' /\ nth v visited' false = true /\
    forall fuel, critical_dfs (k + fuel) ops visited (v :: rest) = critical_dfs fuel ops' visited' rest.
Proof.
  induction r as [|r IH]; intros v Hr ops visited rest I Hv; [lia|].
  assert (Leaf : forall ops visited, dfs_state chain D ops0 ops visited -> (forall e, e ∈ succs chain v -> nth (neigh_id e) visited false = true) ->
    exists k ops' visited', dfs_state chain D ops0 ops' visited' /\ grows visited visited' /\ nth v visited' false = true /\
    forall fuel, critical_dfs (k + fuel) ops visited (v :: rest) = critical_dfs fuel ops' visited' rest).
  { clear ops visited I. intros ops visited I Hn. destruct (nth v visited false) eqn:Nv.
    - exists 1, ops, visited. split; [exact I|]. split; [intros w; auto|]. split; [exact Nv|]. intros fuel. cbn [plus critical_dfs].
      rewrite (index_visited ops visited v I Hv). cbn [mbind outcome_bind]. rewrite Nv. reflexivity.
    - destruct (finish_spec ops visited v I Hv Nv Hn) as (o & ops' & Ho & Ee & Ef & I'). exists 1, ops', (<[v := true]> visited).
      assert (Lv : v < length visited) by (destruct I as (_ & L & _); lia).
      split; [exact I'|]. split; [intros w Hw; rewrite nth_insert_true by exact Lv; destruct (decide (w = v)); auto|].
      split; [rewrite nth_insert_true by exact Lv; rewrite decide_True by reflexivity; reflexivity|]. intros fuel. cbn [plus critical_dfs].
      rewrite (index_visited ops visited v I Hv). cbn [mbind outcome_bind]. rewrite Nv, (index_eq _ _ _ Ho). cbn [mbind outcome_bind]. rewrite Ee.
      destruct (unvisited_spec ops visited (succs chain v) [] I) as (l & E & H). { intros e He. destruct (succs_range chain v e O He). lia. }
      rewrite app_nil_r in E. rewrite E. cbn [mbind outcome_bind]. destruct l as [|w l].
      + rewrite Ef. reflexivity.
      + destruct (proj1 (H w) ltac:(left)) as (e & He & -> & Hw). rewrite (Hn e He) in Hw. discriminate. }
  destruct (nth v visited false) eqn:Nv.
  { exists 1, ops, visited. split; [exact I|]. split; [intros w; auto|]. split; [exact Nv|]. intros fuel. cbn [plus critical_dfs].
    rewrite (index_visited ops visited v I Hv). cbn [mbind outcome_bind]. rewrite Nv. reflexivity. }
  destruct (unvisited_spec ops visited (succs chain v) [] I) as (l & E & H). { intros e He. destruct (succs_range chain v e O He). lia. }
  rewrite app_nil_r in E. destruct l as [|w0 l0] eqn:El.
  { apply Leaf; [exact I|]. intros e He. destruct (nth (neigh_id e) visited false) eqn:En; [reflexivity|]. exfalso. apply (proj1 (elem_of_nil (neigh_id e))).
    apply H. exists e. auto. }
  rewrite <- El in *.
  assert (G : forall ws ops visited rest', (forall w, w ∈ ws -> rank w < r /\ w < n + 2) -> dfs_state chain D ops0 ops visited ->
    exists k ops' visited', dfs_state chain D ops0 ops' visited' /\ grows visited visited' /\ (forall w, w ∈ ws -> nth w visited' false = true) /\
    forall fuel, critical_dfs (k + fuel) ops visited (ws ++ rest') = critical_dfs fuel ops' visited' rest').
  { clear - IH. induction ws as [|w ws IHw]; intros ops visited rest' Hw I.
    - exists 0, ops, visited. split; [exact I|]. split; [intros w; auto|]. split; [intros w Hin; apply elem_of_nil in Hin; tauto|]. reflexivity.
    - destruct (Hw w ltac:(left)) as [W1 W2]. destruct (IH w W1 ops visited (ws ++ rest') I W2) as (k1 & ops1 & vis1 & I1 & G1 & N1 & E1).
      destruct (IHw ops1 vis1 rest') as (k2 & ops2 & vis2 & I2 & G2 & N2 & E2); [intros; apply Hw; right; assumption|exact I1|].
      exists (k1 + k2), ops2, vis2. split; [exact I2|]. split; [intros x Hx; apply G2, G1, Hx|]. split.
      + intros x [->|Hx]%elem_of_cons; [apply G2, N1|apply N2, Hx].
      + intros fuel. cbn [app]. rewrite <- Nat.add_assoc, E1, E2. reflexivity. }
  destruct (G l ops visited (v :: rest)) as (k1 & ops1 & vis1 & I1 & G1 & N1 & E1); [|exact I|].
  { intros w Hw. apply H in Hw as (e & He & -> & _). pose proof (R v e He). destruct (succs_range chain v e O He). lia. }
  destruct (Leaf ops1 vis1 I1) as (k2 & ops2 & vis2 & I2 & G2 & N2 & E2).
  { intros e He. destruct (nth (neigh_id e) visited false) eqn:En; [apply G1, En|]. apply N1, H. exists e. auto. }
  exists (1 + k1 + k2), ops2, vis2. split; [exact I2|]. split; [intros x Hx; apply G2, G1, Hx|]. split; [exact N2|]. intros fuel.
  destruct (ops0_at v Hv) as [o Ho]. pose proof I as (_ & _ & M & _). pose proof (M v o Ho) as Hov. rewrite Nv in Hov.
  destruct (shaped_edges chain ops0 v o Sh Ho) as (Ee & _).
  change (1 + k1 + k2 + fuel) with (Datatypes.S (k1 + k2 + fuel)). cbn [critical_dfs]. rewrite (index_visited ops visited v I Hv). cbn [mbind outcome_bind].
  rewrite Nv, (index_eq _ _ _ Hov). cbn [mbind outcome_bind]. rewrite Ee, E. cbn [mbind outcome_bind]. rewrite El at 1. rewrite <- Nat.add_assoc, E1, E2. reflexivity.
Qed.

Lemma all_visited ops visited : dfs_state chain D ops0 ops visited -> nth 0 visited false = true -> forall v, v < n + 2 -> nth v visited false = true.
Proof.
  intros (_ & _ & _ & Cl) H0.
  assert (Real : forall i, i <= n -> nth i visited false = true).
  { induction i as [i IH] using lt_wf_ind. intros Hi. destruct (decide (i = 0)) as [->|Hi0]; [exact H0|].
    pose proof (jpred_lt i ltac:(lia)) as Hp. destruct (decide (jpred i = 0)) as [E|E].
    - destruct (zedges_first i ltac:(lia) E) as (e & He & <-). apply (Cl 0 e H0). unfold succs. rewrite decide_True by reflexivity. exact He.
    - specialize (IH (jpred i) Hp ltac:(lia)). pose proof (Cl (jpred i) (Edge (jsucc (jpred i)) JobSucc) IH) as C. cbn in C. rewrite jsucc_jpred in C by lia. apply C.
      unfold succs. rewrite decide_False, decide_True by lia. rewrite jsucc_jpred by lia. left. }
  intros v Hv. destruct (decide (v <= n)) as [Hle|Hgt]; [apply Real, Hle|]. assert (v = n + 1) as -> by lia. rewrite <- jsucc_last.
  apply (Cl n (Edge (jsucc n) JobSucc) (Real n ltac:(lia))). unfold succs. rewrite decide_False, decide_True by lia. left.
Qed.

Theorem determine_makespan_spec : exists k, forall fuel, k <= fuel -> exists ops', determine_makespan fuel ops0 = Ok (ops', D 0) /\
  ops' = imap (mark D chain) ops0.
Proof.
  assert (I0 : dfs_state chain D ops0 ops0 (repeat false (n + 2))).
  { destruct Sh as (L & _). split; [exact L|]. split; [apply repeat_length|]. assert (F : forall v, nth v (repeat false (n + 2)) false = false).
    { intros v. apply nth_repeat. } split; [intros v o Ho; rewrite F; exact Ho|intros v e Hv; rewrite F in Hv; discriminate]. }
  destruct (dfs_vertex (Datatypes.S (rank 0)) 0 ltac:(lia) ops0 _ [] I0 ltac:(lia)) as (k & ops' & vis' & I & _ & N0 & E).
  exists k. intros fuel Hf. exists ops'. pose proof (all_visited ops' vis' I N0) as Av. destruct I as (L & Lv & M & _).
  assert (Eq : ops' = imap (mark D chain) ops0).
  { apply list_eq. intros v. rewrite list_lookup_imap. destruct (ops0 !! v) as [o|] eqn:Ho.
    - assert (v < n + 2) by (destruct Sh as (L0 & _); rewrite <- L0; apply lookup_lt_Some in Ho; exact Ho). rewrite (M v o Ho), Av by assumption. reflexivity.
    - apply lookup_ge_None in Ho. cbn. apply lookup_ge_None. destruct Sh as (L0 & _). lia. }
  split; [|exact Eq]. unfold determine_makespan. destruct Sh as (L0 & _). rewrite L0. replace fuel with (k + (fuel - k)) by lia. rewrite E.
  assert (E0 : critical_dfs (fuel - k) ops' vis' [] = Ok ops') by (destruct (fuel - k); reflexivity). rewrite E0. cbn [mbind outcome_bind].
  destruct (ops0_at 0 ltac:(lia)) as [o Ho]. rewrite (index_eq ops' 0 (mark D chain 0 o)) by (rewrite (M 0 o Ho), N0; reflexivity). reflexivity.
Qed.
End Dfs.

(** ** Critical blocks *)
Definition critical_pair (chain : nat -> list nat) (D : nat -> N) (u v : nat) : Prop := next (chain (mach u)) u = Some v /\ D u = (dur u + D v)%N.
Definition critical_block (chain : nat -> list nat) (D : nat -> N) (l : list nat) : Prop := forall x u v y, l = x ++ u :: v :: y -> critical_pair chain D u v.
Lemma pair_real chain u v : orders chain -> next (chain (mach u)) u = Some v -> 1 <= u <= n /\ 1 <= v <= n /\ mach v = mach u.
Proof. intros O E. apply next_in in E as [Hu Hv]. apply O in Hu as [Hu _]. apply O in Hv as [Hv E]. auto. Qed.

Lemma mark_shaped chain chain' D ops : shaped chain ops -> shaped chain (imap (mark D chain') ops).
Proof.
  intros (L & S & Lk). split; [rewrite imap_length; exact L|]. split.
  - intros i o' Ho'. rewrite list_lookup_imap in Ho'. destruct (ops !! i) as [o|] eqn:Ho; [|discriminate]. cbn in Ho'. injection Ho' as <-.
    destruct (S i o Ho) as (S1 & S2 & S3 & S4). split; [exact S1|]. split; [exact S2|]. split; [exact S3|]. intros Hi. destruct (S4 Hi) as (A & B & C & _).
    split; [exact A|]. split; [exact B|]. split; [exact C|]. cbn. rewrite Hi, succs_sink. reflexivity.
  - intros i o' Hi Ho'. rewrite list_lookup_imap in Ho'. destruct (ops !! i) as [o|] eqn:Ho; [|discriminate]. cbn in Ho'. injection Ho' as <-. exact (Lk i o Hi Ho).
Qed.
Lemma mark_finish chain D ops : map op_finish (imap (mark D chain) ops) = map op_finish ops.
Proof.
  change (op_finish <$> imap (mark D chain) ops = op_finish <$> ops). apply list_eq. intros i. rewrite !list_lookup_fmap, list_lookup_imap. destruct (ops !! i); reflexivity.
Qed.

(** A critical path from vertex v on, cut into blocks; [cur] are the operations of the current block that come before v *)
Inductive route (chain : nat -> list nat) (D : nat -> N) : nat -> list nat -> list (list nat) -> Prop :=
| route_end : D (n + 1) = 0%N -> route chain D (n + 1) [] []
| route_job v cur bs : 1 <= v <= n -> D v = (dur v + D (jsucc v))%N -> route chain D (jsucc v) [] bs -> route chain D v cur ((cur ++ [v]) :: bs)
| route_machine v w cur bs : 1 <= v <= n -> critical_pair chain D v w -> route chain D w (cur ++ [v]) bs -> route chain D v cur bs.

Section Blocks.
Context (chain : nat -> list nat) (rank : nat -> nat) (D : nat -> N) (ops0 : list operation).
Context (O : orders chain) (R : ranked chain rank) (S : solves chain D) (Sh : shaped chain ops0).
Notation ops := (imap (mark D chain) ops0).
Lemma marked_at v : v < n + 2 -> exists o, ops !! v = Some o /\ op_cp_edge o = cp_of D (succs chain v) /\ op_id o = v.
Proof.
  intros Hv. destruct Sh as (L & St & _). destruct (lookup_lt_is_Some_2 ops0 v) as [o Ho]; [lia|]. exists (mark D chain v o).
  split; [rewrite list_lookup_imap, Ho; reflexivity|]. split; [reflexivity|]. exact (proj1 (St v o Ho)).
Qed.
Lemma blocks_from_spec : forall r v, rank v < r -> 1 <= v <= n + 1 -> forall done cur,
  critical_block chain D cur -> (forall p, last cur = Some p -> critical_pair chain D p v) ->
  exists k bs, route chain D v cur bs /\ Forall (critical_block chain D) bs /\ forall fuel, k <= fuel -> blocks_from fuel ops v done cur = Ok (done ++ bs).
Proof.
  induction r as [|r IH]; intros v Hr Hv done cur Hcur Hlast; [lia|].
  destruct (marked_at v ltac:(lia)) as (o & Ho & Ecp & Eid). destruct (decide (v = n + 1)) as [->|Hs].
  - rewrite succs_sink in Ecp. assert (E : cur = []).
    { destruct (last cur) as [p|] eqn:El; [|apply last_None in El; exact El]. destruct (Hlast p eq_refl) as [En _]. destruct (pair_real _ _ _ O En) as (_ & ? & _). lia. }
    subst cur. exists 0, []. split; [constructor; rewrite (S (n + 1)), succs_sink; unfold vdur; rewrite decide_False by lia; reflexivity|]. split; [constructor|]. intros fuel _. rewrite app_nil_r. destruct fuel; cbn [blocks_from]; rewrite (index_eq _ _ _ Ho); cbn [mbind outcome_bind]; rewrite Ecp; reflexivity.
  - assert (Hvn : v <= n) by lia. destruct (cp_of D (succs chain v)) as [e|] eqn:Ee.
    2:{ exfalso. apply (succs_ne chain v Hvn). destruct (succs chain v); [reflexivity|discriminate]. }
    destruct (cp_of_spec D _ _ Ee) as [He Emax]. pose proof (R v e He) as Hrk. destruct (succs_range chain v e O He) as (Hre & _ & _).
    assert (Hcur' : critical_block chain D (cur ++ [v])).
    { intros x u w y E. destruct y as [|z y] using rev_ind.
      - change (x ++ [u; w]) with (x ++ [u] ++ [w]) in E. rewrite app_assoc in E. apply app_inj_tail in E as [-> <-]. apply Hlast. apply stdpp.list.last_snoc.
      - replace (x ++ u :: w :: y ++ [z]) with ((x ++ u :: w :: y) ++ [z]) in E by (rewrite <- app_assoc; reflexivity).
        apply app_inj_tail in E as [-> _]. apply (Hcur x u w y). reflexivity. }
    destruct (edge_kind_of e) eqn:Ek.
    + destruct (IH (neigh_id e) ltac:(lia) Hre (done ++ [cur ++ [v]]) []) as (k & bs & Rt & Hb & E).
      { intros x u w y E. destruct x; discriminate. } { discriminate. }
      assert (Ej : neigh_id e = jsucc v).
      { unfold succs in He. rewrite decide_False in He by lia. rewrite decide_True in He by lia. apply elem_of_cons in He as [->|He]; [reflexivity|].
        destruct (next (chain (mach v)) v) as [w|]; cbn in He; [|apply elem_of_nil in He; tauto]. apply elem_of_list_singleton in He as ->. discriminate. }
      exists (Datatypes.S k), ((cur ++ [v]) :: bs). split; [|split; [constructor; [exact Hcur'|exact Hb]|]].
      { constructor; [lia| |rewrite <- Ej; exact Rt]. rewrite (S v) at 1. rewrite <- Emax, Ej. unfold vdur. rewrite decide_True by lia. reflexivity. }
      intros fuel Hf. destruct fuel as [|fuel]; [lia|]. cbn [blocks_from].
      rewrite (index_eq _ _ _ Ho). cbn [mbind outcome_bind]. rewrite Ecp, Ek, Eid. rewrite (E fuel) by lia. rewrite <- app_assoc. reflexivity.
    + assert (Pair : critical_pair chain D v (neigh_id e)).
      { unfold succs in He. rewrite decide_False in He by lia. rewrite decide_True in He by lia. apply elem_of_cons in He as [->|He]; [discriminate|].
        destruct (next (chain (mach v)) v) as [w|] eqn:En; cbn in He; [|apply elem_of_nil in He; tauto]. apply elem_of_list_singleton in He as ->. split; [exact En|].
        rewrite (S v) at 1. rewrite <- Emax. unfold vdur. rewrite decide_True by lia. reflexivity. }
      destruct (IH (neigh_id e) ltac:(lia) Hre done (cur ++ [v]) Hcur') as (k & bs & Rt & Hb & E).
      { intros p. rewrite stdpp.list.last_snoc. intros [= <-]. exact Pair. }
      exists (Datatypes.S k), bs. split; [apply (route_machine chain D v (neigh_id e)); [lia|exact Pair|exact Rt]|]. split; [exact Hb|]. intros fuel Hf. destruct fuel as [|fuel]; [lia|]. cbn [blocks_from].
      rewrite (index_eq _ _ _ Ho). cbn [mbind outcome_bind]. rewrite Ecp, Ek, Eid. apply E. lia.
Qed.
(** The blocks of a critical path from the zero vertex *)
Definition critical_route (chain : nat -> list nat) (D : nat -> N) (blocks : list (list nat)) : Prop :=
  exists e, e ∈ zedges /\ D (neigh_id e) = D 0 /\ route chain D (neigh_id e) [] blocks.
Lemma critical_blocks_spec : exists k blocks, critical_route chain D blocks /\ Forall (critical_block chain D) blocks /\ forall fuel, k <= fuel -> critical_blocks fuel ops = Ok blocks.
Proof.
  destruct (marked_at 0 ltac:(lia)) as (o & Ho & Ecp & _). destruct (cp_of D (succs chain 0)) as [e|] eqn:Ee.
  2:{ exfalso. apply (succs_ne chain 0 ltac:(lia)). destruct (succs chain 0); [reflexivity|discriminate]. }
  destruct (cp_of_spec D _ _ Ee) as [He Em]. destruct (succs_range chain 0 e O He) as (Hre & _).
  destruct (blocks_from_spec (Datatypes.S (rank (neigh_id e))) (neigh_id e) ltac:(lia) Hre [] []) as (k & blocks & Rt & Hb & E).
  { intros x u w y E. destruct x; discriminate. } { discriminate. }
  exists k, blocks. split. { exists e. unfold succs in He. rewrite decide_True in He by reflexivity. split; [exact He|]. split; [|exact Rt]. rewrite (S 0), Em. unfold vdur. rewrite decide_False by lia. lia. }
  split; [exact Hb|]. intros fuel Hf. unfold critical_blocks. rewrite (index_eq _ _ _ Ho). cbn [mbind outcome_bind]. rewrite Ecp. cbn [unwrap mbind outcome_bind]. apply E, Hf.
Qed.
End Blocks.

(** ** Exchanging two operations that follow each other on a machine *)
Definition swap_chain (u v : nat) (chain : nat -> list nat) (m : nat) : list nat := map (tr u v) (chain m).
Definition relink (chain : nat -> list nat) (i : nat) (o : operation) : operation :=
  if decide (1 <= i <= n) then set_mpred (prev (chain (mach i)) i) (set_edges (Edge (jsucc i) JobSucc :: machine_edge (next (chain (mach i)) i)) o) else o.
Lemma relink_shaped chain chain' ops : shaped chain ops -> shaped chain' (imap (relink chain') ops).
Proof.
  intros (L & S & Lk). split; [rewrite imap_length; exact L|]. split.
  - intros i o' Ho'. rewrite list_lookup_imap in Ho'. destruct (ops !! i) as [o|] eqn:Ho; [|discriminate]. cbn in Ho'. injection Ho' as <-.
    destruct (S i o Ho) as (S1 & S2 & S3 & S4). unfold relink. destruct (decide (1 <= i <= n)) as [Hi|Hi]; [|split; auto].
    split; [exact S1|]. split; [exact S2|]. split; lia.
  - intros i o' Hi Ho'. rewrite list_lookup_imap in Ho'. destruct (ops !! i) as [o|] eqn:Ho; [|discriminate]. cbn in Ho'. injection Ho' as <-.
    unfold relink. rewrite decide_True by exact Hi. split; reflexivity.
Qed.
Lemma relink_finish chain ops : map op_finish (imap (relink chain) ops) = map op_finish ops.
Proof.
  change (op_finish <$> imap (relink chain) ops = op_finish <$> ops). apply list_eq. intros i. rewrite !list_lookup_fmap, list_lookup_imap. destruct (ops !! i); [|reflexivity].
  cbn. unfold relink. destruct (decide _); reflexivity.
Qed.
Lemma shaped_ext chain chain' ops : (forall m, chain m = chain' m) -> shaped chain ops -> shaped chain' ops.
Proof.
  intros E (L & S & Lk). split; [exact L|]. split; [exact S|]. intros i o Hi Ho. destruct (Lk i o Hi Ho) as [A B]. split; [rewrite A, E|rewrite B, E]; reflexivity.
Qed.
Lemma swap_chain_invol u v chain m : swap_chain v u (swap_chain u v chain) m = chain m.
Proof. unfold swap_chain. rewrite map_map. rewrite (map_ext _ (fun x => x)) by (intros x; apply tr_invol). apply map_id. Qed.
Lemma update_op_eq ops i f o o' : ops !! i = Some o -> f o = Ok o' -> update_op ops i f = Ok (<[i := o']> ops).
Proof. intros H E. unfold update_op. rewrite (index_eq _ _ _ H). cbn [mbind outcome_bind]. rewrite E. reflexivity. Qed.
Lemma update_op_pure (g : operation -> operation) ops i o : ops !! i = Some o -> update_op ops i (fun o => Ok (g o)) = Ok (<[i := g o]> ops).
Proof. intros H. apply (update_op_eq ops i _ o); [exact H|reflexivity]. Qed.

Section Swap.
Context (chain : nat -> list nat) (u v : nat) (a b : list nat).
Context (O : orders chain) (Ec : chain (mach u) = a ++ u :: v :: b).
Lemma swap_facts : 1 <= u <= n /\ 1 <= v <= n /\ mach v = mach u /\ u <> v /\ NoDup (a ++ u :: v :: b) /\
  (forall i, i ∈ a ++ u :: v :: b -> 1 <= i <= n /\ mach i = mach u) /\ next (chain (mach u)) u = Some v.
Proof.
  destruct (O (mach u)) as [Nd Hin]. rewrite Ec in Nd. assert (M : forall i, i ∈ a ++ u :: v :: b -> 1 <= i <= n /\ mach i = mach u) by (intros i Hi; apply Hin; rewrite Ec; exact Hi).
  destruct (M u) as [Hu _]; [apply elem_of_app; right; left|]. destruct (M v) as [Hv E]; [apply elem_of_app; right; right; left|].
  destruct (swap_split _ _ _ _ Nd) as (Huv & Hua & _). split; [exact Hu|]. split; [exact Hv|]. split; [exact E|]. split; [exact Huv|]. split; [exact Nd|]. split; [exact M|].
  rewrite Ec, next_app by exact Hua. reflexivity.
Qed.
Lemma swap_chain_at m : swap_chain u v chain m = if decide (m = mach u) then a ++ v :: u :: b else chain m.
Proof.
  destruct swap_facts as (Hu & Hv & Em & Huv & Nd & M & _). unfold swap_chain. destruct (decide (m = mach u)) as [->|Hm].
  - rewrite Ec. apply map_tr_swap, Nd.
  - apply map_tr_other; intros H; apply O in H as [_ H]; congruence.
Qed.
Lemma swap_next i : next (swap_chain u v chain (mach i)) i = if decide (i = v) then Some u else if decide (i = u) then head b else if decide (last a = Some i) then Some v else next (chain (mach i)) i.
Proof.
  destruct swap_facts as (Hu & Hv & Em & Huv & Nd & M & _). rewrite swap_chain_at. destruct (decide (mach i = mach u)) as [E|E].
  - rewrite E, Ec. apply next_swap, Nd.
  - rewrite !decide_False; [reflexivity| | |].
    + intros H. destruct (M i) as [_ K]; [apply elem_of_app; left; apply last_in, H|]. congruence.
    + intros ->. congruence.
    + intros ->. congruence.
Qed.
Lemma swap_prev i : prev (swap_chain u v chain (mach i)) i = if decide (i = v) then last a else if decide (i = u) then Some v else if decide (head b = Some i) then Some u else prev (chain (mach i)) i.
Proof.
  destruct swap_facts as (Hu & Hv & Em & Huv & Nd & M & _). rewrite swap_chain_at. destruct (decide (mach i = mach u)) as [E|E].
  - rewrite E, Ec. apply prev_swap, Nd.
  - rewrite !decide_False; [reflexivity| | |].
    + intros H. destruct (M i) as [_ K]; [|congruence]. apply elem_of_app. right. right. right. destruct b; [discriminate|]. injection H as ->. left.
    + intros ->. congruence.
    + intros ->. congruence.
Qed.
Lemma swap_orders : orders (swap_chain u v chain).
Proof.
  destruct swap_facts as (Hu & Hv & Em & Huv & Nd & M & _). intros m. rewrite swap_chain_at. destruct (decide (m = mach u)) as [->|Hm]; [|apply O].
  assert (P : a ++ v :: u :: b ≡ₚ chain (mach u)) by (rewrite Ec; apply Permutation_app_head; constructor). destruct (O (mach u)) as [N1 N2]. split.
  - rewrite P. exact N1.
  - intros i. rewrite P. apply N2.
Qed.

Lemma swap_ops_spec ops : shaped chain ops -> swap_ops ops u v = Ok (imap (relink (swap_chain u v chain)) ops).
Proof.
  intros Sh. destruct swap_facts as (Hu & Hv & Em & Huv & Nd & M & En). pose proof Sh as (L & S & Lk).
  destruct (swap_split _ _ _ _ Nd) as (_ & Hua & Hva & Hub & Hvb & Na & Nb & Hab).
  assert (At : forall i, 1 <= i <= n -> exists o, ops !! i = Some o /\ op_edges o = Edge (jsucc i) JobSucc :: machine_edge (next (chain (mach i)) i) /\ op_mpred o = prev (chain (mach i)) i).
  { intros i Hi. destruct (lookup_lt_is_Some_2 ops i) as [o Ho]; [lia|]. exists o. split; [exact Ho|]. exact (Lk i o Hi Ho). }
  destruct (At u Hu) as (ou & Hou & Eu & Pu). destruct (At v Hv) as (ov & Hov & Ev & Pv). rewrite En in Eu. cbn [machine_edge] in Eu.
  assert (Env : next (chain (mach v)) v = head b).
  { rewrite Em, Ec. change (a ++ u :: v :: b) with (a ++ [u] ++ (v :: b)). rewrite app_assoc, next_app; [reflexivity|]. rewrite elem_of_app, elem_of_list_singleton. intros [?|?]; [tauto|congruence]. }
  rewrite Env in Ev. assert (Epu : prev (chain (mach u)) u = last a) by (rewrite Ec; apply prev_app, Hua). rewrite Epu in Pu.
  assert (Hul : u < length ops) by lia. assert (Hvl : v < length ops) by lia.
  unfold swap_ops. rewrite (proj2 (Nat.eqb_neq u 0)) by lia. rewrite (proj2 (Nat.eqb_neq v 0)) by lia. cbn [negb andb rassert mbind outcome_bind].
  rewrite (index_eq _ _ _ Hov). cbn [mbind outcome_bind]. rewrite Ev.
  (* the part on the successor of v *)
  assert (S1 : exists ops1, (match (Edge (jsucc v) JobSucc :: machine_edge (head b)) !! 1 with
      | Some e => ops ← update_op ops u (set_second_edge (neigh_id e)); ops ← update_op ops (neigh_id e) (fun o => Ok (set_mpred (Some u) o)); update_op ops v (set_second_edge u)
      | None => ops ← update_op ops u (fun o => Ok (set_edges (drop_last (op_edges o)) o)); update_op ops v (fun o => Ok (set_edges (op_edges o ++ [Edge u MachineSucc]) o)) end) = Ok ops1 /\
      length ops1 = length ops /\
      ops1 !! u = Some (set_edges (Edge (jsucc u) JobSucc :: machine_edge (head b)) ou) /\
      ops1 !! v = Some (set_edges [Edge (jsucc v) JobSucc; Edge u MachineSucc] ov) /\
      (forall w ow, head b = Some w -> ops !! w = Some ow -> ops1 !! w = Some (set_mpred (Some u) ow)) /\
      (forall i, i <> u -> i <> v -> head b <> Some i -> ops1 !! i = ops !! i)).
  { destruct b as [|w b'] eqn:Eb; cbn [machine_edge head lookup list_lookup].
    - rewrite (update_op_pure (fun o => set_edges (drop_last (op_edges o)) o) _ _ _ Hou). cbn [mbind outcome_bind].
      erewrite (update_op_pure (fun o => set_edges (op_edges o ++ [Edge u MachineSucc]) o) _ v ov) by (rewrite list_lookup_insert_ne by congruence; exact Hov).
      eexists. split; [reflexivity|]. split; [rewrite !insert_length; reflexivity|]. split; [|split; [|split]].
      + rewrite list_lookup_insert_ne by congruence. rewrite list_lookup_insert by lia. rewrite Eu. reflexivity.
      + rewrite list_lookup_insert by (rewrite insert_length; lia). rewrite Ev. reflexivity.
      + discriminate.
      + intros i Hi1 Hi2 _. rewrite !list_lookup_insert_ne by congruence. reflexivity.
    - destruct (At w) as (ow & How & Ew & _); [apply M; apply elem_of_app; right; right; right; left|]. apply not_elem_of_cons in Hub as [Huw _]. apply not_elem_of_cons in Hvb as [Hvw _].
      assert (E1 : set_second_edge w ou = Ok (set_edges [Edge (jsucc u) JobSucc; Edge w MachineSucc] ou)) by (unfold set_second_edge; rewrite Eu; reflexivity).
      cbn [neigh_id]. rewrite (update_op_eq _ _ _ _ _ Hou E1). cbn [mbind outcome_bind].
      erewrite (update_op_pure (set_mpred (Some u)) _ w ow) by (rewrite list_lookup_insert_ne by congruence; exact How). cbn [mbind outcome_bind].
      assert (E2 : set_second_edge u ov = Ok (set_edges [Edge (jsucc v) JobSucc; Edge u MachineSucc] ov)) by (unfold set_second_edge; rewrite Ev; reflexivity).
      erewrite (update_op_eq _ v _ ov _); [|rewrite !list_lookup_insert_ne by congruence; exact Hov|exact E2].
      eexists. split; [reflexivity|]. split; [rewrite !insert_length; reflexivity|]. split; [|split; [|split]].
      + rewrite !list_lookup_insert_ne by congruence. rewrite list_lookup_insert by lia. reflexivity.
      + rewrite list_lookup_insert by (rewrite !insert_length; lia). reflexivity.
      + intros w' ow' [= <-] How'. rewrite list_lookup_insert_ne by congruence. rewrite list_lookup_insert by (rewrite insert_length; apply lookup_lt_Some in How; exact How). congruence.
      + intros i Hi1 Hi2 Hi3. assert (i <> w) by congruence. rewrite !list_lookup_insert_ne by congruence. reflexivity. }
  destruct S1 as (ops1 & E1 & L1 & U1 & V1 & W1 & X1). rewrite E1. cbn [mbind outcome_bind]. rewrite (index_eq _ _ _ U1). cbn [mbind outcome_bind]. change (op_mpred (set_edges _ ou)) with (op_mpred ou). rewrite Pu.
  (* the part on the predecessor of u *)
  assert (S2 : exists ops2, (match last a with Some p => ops ← update_op ops1 p (set_second_edge v); update_op ops v (fun o => Ok (set_mpred (Some p) o)) | None => update_op ops1 v (fun o => Ok (set_mpred None o)) end) = Ok ops2 /\
      length ops2 = length ops /\ ops2 !! u = ops1 !! u /\ ops2 !! v = Some (set_mpred (last a) (set_edges [Edge (jsucc v) JobSucc; Edge u MachineSucc] ov)) /\
      (forall p op, last a = Some p -> ops !! p = Some op -> ops2 !! p = Some (set_edges [Edge (jsucc p) JobSucc; Edge v MachineSucc] op)) /\
      (forall i, i <> v -> last a <> Some i -> ops2 !! i = ops1 !! i)).
  { destruct (last a) as [p|] eqn:El.
    - pose proof (last_in _ _ El) as Hpa. destruct (M p) as [Hp Emp]; [apply elem_of_app; left; exact Hpa|]. destruct (At p Hp) as (op & Hop & Ep & _).
      assert (Enp : next (chain (mach p)) p = Some u).
      { rewrite Emp, Ec. apply last_Some in El as [a' ->]. rewrite <- app_assoc. cbn [app]. rewrite next_app; [reflexivity|]. apply NoDup_app in Na as (_ & Na & _). intros H. apply (Na p H). left. }
      rewrite Enp in Ep. assert (Hpu : p <> u) by (intros ->; contradiction). assert (Hpv : p <> v) by (intros ->; contradiction).
      assert (Hop1 : ops1 !! p = Some op) by (rewrite X1; [exact Hop|exact Hpu|exact Hpv|]; intros H; apply (Hab p Hpa); destruct b; [discriminate|injection H as ->; left]).
      assert (E2 : set_second_edge v op = Ok (set_edges [Edge (jsucc p) JobSucc; Edge v MachineSucc] op)) by (unfold set_second_edge; rewrite Ep; reflexivity).
      rewrite (update_op_eq _ _ _ _ _ Hop1 E2). cbn [mbind outcome_bind].
      erewrite (update_op_pure (set_mpred (Some p)) _ v) by (rewrite list_lookup_insert_ne by congruence; exact V1).
      eexists. split; [reflexivity|]. split; [rewrite !insert_length; exact L1|]. split; [|split; [|split]].
      + rewrite !list_lookup_insert_ne by congruence. reflexivity.
      + rewrite list_lookup_insert by (rewrite insert_length; lia). reflexivity.
      + intros p' op' [= <-] Hop'. rewrite list_lookup_insert_ne by congruence. rewrite list_lookup_insert by (apply lookup_lt_Some in Hop1; exact Hop1). congruence.
      + intros i Hi1 Hi2. assert (i <> p) by congruence. rewrite !list_lookup_insert_ne by congruence. reflexivity.
    - rewrite (update_op_pure (set_mpred None) _ v _ V1). eexists. split; [reflexivity|]. split; [rewrite insert_length; exact L1|]. split; [|split; [|split]].
      + rewrite list_lookup_insert_ne by congruence. reflexivity.
      + rewrite list_lookup_insert by lia. reflexivity.
      + discriminate.
      + intros i Hi1 _. rewrite list_lookup_insert_ne by congruence. reflexivity. }
  destruct S2 as (ops2 & E2 & L2 & U2 & V2 & P2 & X2). rewrite E2. cbn [mbind outcome_bind]. rewrite U1 in U2. rewrite (update_op_pure (set_mpred (Some v)) _ _ _ U2). f_equal.
  apply list_eq. intros i. rewrite list_lookup_imap. destruct (decide (i = u)) as [->|Hiu].
  { rewrite list_lookup_insert by lia. rewrite Hou. cbn. f_equal. unfold relink. rewrite decide_True by exact Hu. rewrite swap_next, swap_prev.
    rewrite !(decide_False (P := u = v)) by exact Huv. rewrite !(decide_True (P := u = u)) by reflexivity. reflexivity. }
  rewrite list_lookup_insert_ne by congruence. destruct (decide (i = v)) as [->|Hiv].
  { rewrite V2, Hov. cbn. f_equal. unfold relink. rewrite decide_True by exact Hv. rewrite swap_next, swap_prev. rewrite !(decide_True (P := v = v)) by reflexivity. reflexivity. }
  destruct (ops !! i) as [o|] eqn:Ho.
  2:{ cbn. apply lookup_ge_None. apply lookup_ge_None in Ho. lia. }
  cbn. unfold relink. destruct (decide (1 <= i <= n)) as [Hi|Hi].
  2:{ assert (K : forall l : list nat, i ∈ l -> (forall x, x ∈ l -> x ∈ a ++ u :: v :: b) -> False). { intros l H1 H2. destruct (M i (H2 i H1)). lia. }
      rewrite X2, X1; auto.
      - intros H. apply (K b); [destruct b; [discriminate|injection H as ->; left]|]. intros x Hx. apply elem_of_app. right. right. right. exact Hx.
      - intros H. apply (K a); [apply last_in, H|]. intros x Hx. apply elem_of_app. left. exact Hx. }
  destruct (At i Hi) as (o' & Ho' & Ei & Pi). assert (o' = o) as -> by congruence.
  rewrite swap_next, swap_prev. rewrite !(decide_False (P := i = v)), !(decide_False (P := i = u)) by assumption.
  destruct (decide (last a = Some i)) as [Hla|Hla].
  - rewrite (P2 i o Hla Ho). f_equal. rewrite decide_False.
    + rewrite <- Pi. destruct o; reflexivity.
    + intros H. apply (Hab i (last_in _ _ Hla)). destruct b; [discriminate|injection H as ->; left].
  - rewrite X2 by assumption. destruct (decide (head b = Some i)) as [Hhb|Hhb].
    + rewrite (W1 i o Hhb Ho). f_equal. rewrite <- Ei. destruct o; reflexivity.
    + rewrite X1 by assumption. rewrite Ho. f_equal. rewrite <- Ei, <- Pi. destruct o; reflexivity.
Qed.
End Swap.


(** ** Local search: every exchange it tries leaves the graph without cycles *)
Section Search.
Hypothesis dur_pos : forall i, 1 <= i <= n -> (0 < dur i)%N.
Hypothesis mach_ne : forall i, 1 <= i <= n -> jsucc i <= n -> mach (jsucc i) <> mach i.

Definition swap_rank (D : nat -> N) (u v x : nat) : nat :=
  N.to_nat (if decide (x = u) then 3 * D v + 1 else if decide (x = v) then 3 * D v + 2 else if decide (x = 0%nat) then 3 * D 0%nat + 3 else 3 * D x)%N.
Lemma swap_ranked chain D u v a b : orders chain -> solves chain D -> chain (mach u) = a ++ u :: v :: b -> D u = (dur u + D v)%N ->
  ranked (swap_chain u v chain) (swap_rank D u v).
Proof.
  intros O S Ec Cr x e He. destruct (swap_facts chain u v a b O Ec) as (Hu & Hv & Em & Huv & Nd & M & En).
  destruct (swap_split _ _ _ _ Nd) as (_ & Hua & Hva & Hub & Hvb & Na & Nb & Hab).
  destruct (succs_range _ _ _ (swap_orders chain u v a b O Ec) He) as (Hy & Hx & _).
  pose proof (dur_pos u Hu) as Du. pose proof (dur_pos v Hv) as Dv.
  assert (Job : forall i, 1 <= i <= n -> (dur i + D (jsucc i) <= D i)%N).
  { intros i Hi. pose proof (edge_dist chain D i (Edge (jsucc i) JobSucc) S) as H. unfold vdur in H. rewrite decide_True in H by exact Hi. apply H. unfold succs. rewrite decide_False, decide_True by lia. left. }
  assert (Mac : forall i j, 1 <= i <= n -> next (chain (mach i)) i = Some j -> (dur i + D j <= D i)%N).
  { intros i j Hi Hn. pose proof (edge_dist chain D i (Edge j MachineSucc) S) as H. unfold vdur in H. rewrite decide_True in H by exact Hi. apply H. unfold succs. rewrite decide_False, decide_True by lia. rewrite Hn. right. left. }
  assert (Zero : forall e, e ∈ zedges -> (D (neigh_id e) <= D 0%nat)%N).
  { intros e' He'. pose proof (edge_dist chain D 0 e' S) as H. unfold vdur in H. rewrite decide_False in H by lia. rewrite N.add_0_l in H. apply H. unfold succs. rewrite decide_True by reflexivity. exact He'. }
  assert (Gen : forall y, y <> 0 -> x <> u -> x <> v -> x <> 0 -> (D y < D x)%N -> swap_rank D u v y < swap_rank D u v x).
  { intros y Y0 X1 X2 X3 H. unfold swap_rank. rewrite (decide_False (P := x = u)), (decide_False (P := x = v)), (decide_False (P := x = 0)), (decide_False (P := y = 0)) by assumption.
    destruct (decide (y = u)) as [->|]; [lia|]. destruct (decide (y = v)) as [->|]; lia. }
  unfold succs in He. destruct (decide (x = 0)) as [->|X0].
  { pose proof (Zero e He). unfold swap_rank. rewrite (decide_False (P := 0 = u)), (decide_False (P := 0 = v)), (decide_True (P := 0 = 0)), (decide_False (P := neigh_id e = 0)) by lia.
    destruct (decide (neigh_id e = u)) as [E|]; [rewrite E in *; lia|]. destruct (decide (neigh_id e = v)) as [E|]; [rewrite E in *|]; lia. }
  rewrite decide_True in He by lia. assert (Hxr : 1 <= x <= n) by lia.
  assert (Ru : swap_rank D u v u = N.to_nat (3 * D v + 1)%N) by (unfold swap_rank; rewrite decide_True by reflexivity; reflexivity).
  assert (Rv : swap_rank D u v v = N.to_nat (3 * D v + 2)%N) by (unfold swap_rank; rewrite decide_False by congruence; rewrite decide_True by reflexivity; reflexivity).
  assert (Ro : forall y, y <> u -> y <> v -> y <> 0 -> swap_rank D u v y = N.to_nat (3 * D y)%N) by (intros y Y1 Y2 Y3; unfold swap_rank; rewrite !decide_False by assumption; reflexivity).
  apply elem_of_cons in He as [->|He].
  - cbn [neigh_id] in *. pose proof (Job x Hxr) as HD. pose proof (jsucc_gt x Hxr). pose proof (dur_pos x Hxr). destruct (decide (x = u)) as [->|Xu]; [|destruct (decide (x = v)) as [->|Xv]].
    + rewrite Ru, Ro; [lia|lia| |lia]. intros E. apply (mach_ne u Hu); [lia|]. rewrite E. exact Em.
    + rewrite Rv, Ro; [lia| |lia|lia]. intros E. apply (mach_ne v Hv); [lia|]. rewrite E. congruence.
    + apply Gen; auto; lia.
  - rewrite (swap_next chain u v a b O Ec) in He. destruct (decide (x = v)) as [->|Xv].
    { cbn [machine_edge] in He. apply elem_of_list_singleton in He as ->. cbn [neigh_id]. rewrite Ru, Rv. lia. }
    destruct (decide (x = u)) as [->|Xu].
    { destruct b as [|w b']; cbn [head machine_edge] in He; [apply elem_of_nil in He; tauto|]. apply elem_of_list_singleton in He as ->. cbn [neigh_id] in *.
      assert (En' : next (chain (mach v)) v = Some w).
      { rewrite Em, Ec. change (a ++ u :: v :: w :: b') with (a ++ [u] ++ (v :: w :: b')). rewrite app_assoc, next_app; [reflexivity|]. rewrite elem_of_app, elem_of_list_singleton. intros [?|?]; [tauto|congruence]. }
      pose proof (Mac v w Hv En') as HD. apply not_elem_of_cons in Hub as [? _]. apply not_elem_of_cons in Hvb as [? _]. rewrite Ru, Ro; [lia|congruence|congruence|lia]. }
    destruct (decide (last a = Some x)) as [Hl|Hl].
    { cbn [machine_edge] in He. apply elem_of_list_singleton in He as ->. cbn [neigh_id] in *.
      assert (Enx : next (chain (mach x)) x = Some u).
      { destruct (M x) as [_ Emx]; [apply elem_of_app; left; apply last_in, Hl|]. rewrite Emx, Ec. apply last_Some in Hl as [a' ->]. rewrite <- app_assoc. cbn [app]. rewrite next_app; [reflexivity|].
        apply NoDup_app in Na as (_ & Na & _). intros H. apply (Na x H). left. }
      pose proof (Mac x u Hxr Enx). apply Gen; auto; lia. }
    destruct (next (chain (mach x)) x) as [w|] eqn:Enx; cbn [machine_edge] in He; [|apply elem_of_nil in He; tauto]. apply elem_of_list_singleton in He as ->. cbn [neigh_id] in *.
    pose proof (Mac x w Hxr Enx). pose proof (dur_pos x Hxr). apply Gen; auto; lia.
Qed.

(** An acyclic order of the operations on every machine, represented in [ops], and its makespan *)
Definition plan (chain : nat -> list nat) (rank : nat -> nat) (D : nat -> N) (ops : list operation) : Prop :=
  orders chain /\ ranked chain rank /\ solves chain D /\ shaped chain ops.
(** Exchanging u and v does not make the plan shorter *)
Definition no_gain (chain : nat -> list nat) (D : nat -> N) (u v : nat) : Prop :=
  exists rank' D', orders (swap_chain u v chain) /\ ranked (swap_chain u v chain) rank' /\ solves (swap_chain u v chain) D' /\ (D 0%nat <= D' 0%nat)%N.
Definition tried (chain : nat -> list nat) (D : nat -> N) (i len : nat) (blocks : list (list nat)) : Prop :=
  forall q block, blocks !! q = Some block ->
    (forall u v y, block = u :: v :: y -> 0 < i + q -> no_gain chain D u v) /\ (forall x u v, block = x ++ [u; v] -> i + q <> len - 1 -> no_gain chain D u v).
Lemma try_swap_spec chain rank D ops u v : plan chain rank D ops -> critical_pair chain D u v ->
  exists k ops' m upd, (forall fuel, k <= fuel -> try_swap fuel ops (D 0) u v = Ok (ops', m, upd)) /\ map op_finish ops' = map op_finish ops /\
    (upd = false -> m = D 0 /\ plan chain rank D ops' /\ no_gain chain D u v) /\
    (upd = true -> exists chain' rank' D', plan chain' rank' D' ops' /\ m = D' 0 /\ (m < D 0%nat)%N).
Proof.
  intros (O & R & S & Sh) [En Cr]. destruct (next_split _ _ _ En) as (a & b & Ec & _).
  pose proof (swap_ops_spec chain u v a b O Ec ops Sh) as Esw. set (ops1 := imap _ ops) in *. set (chain1 := swap_chain u v chain) in *.
  assert (O1 : orders chain1) by exact (swap_orders chain u v a b O Ec). assert (R1 : ranked chain1 (swap_rank D u v)) by exact (swap_ranked chain D u v a b O S Ec Cr).
  assert (Sh1 : shaped chain1 ops1) by exact (relink_shaped chain chain1 ops Sh). set (D1 := dist chain1 (swap_rank D u v)). assert (S1 : solves chain1 D1) by (apply dist_solves, R1).
  destruct (determine_makespan_spec chain1 (swap_rank D u v) D1 ops1 O1 R1 S1 Sh1) as (k & Ek). set (ops2 := imap (mark D1 chain1) ops1) in *.
  assert (F1 : map op_finish ops1 = map op_finish ops) by apply relink_finish. assert (F2 : map op_finish ops2 = map op_finish ops) by (unfold ops2; rewrite mark_finish; exact F1).
  assert (Sh2 : shaped chain1 ops2) by exact (mark_shaped chain1 chain1 D1 ops1 Sh1).
  destruct (swap_facts chain u v a b O Ec) as (Hu & Hv & Em & Huv & Nd & M & _).
  assert (Ec1 : chain1 (mach v) = a ++ v :: u :: b) by (unfold chain1; rewrite (swap_chain_at chain u v a b O Ec), decide_True by exact Em; reflexivity).
  pose proof (swap_ops_spec chain1 v u a b O1 Ec1 ops2 Sh2) as Esw2. set (ops3 := imap _ ops2) in *.
  assert (Sh3 : shaped chain ops3). { apply (shaped_ext (swap_chain v u chain1)); [intros m; apply swap_chain_invol|]. exact (relink_shaped chain1 _ ops2 Sh2). }
  assert (F3 : map op_finish ops3 = map op_finish ops) by (unfold ops3; rewrite relink_finish; exact F2).
  destruct (D1 0%nat <? D 0%nat)%N eqn:Elt.
  - exists k, ops2, (D1 0), true. split; [|split; [exact F2|split; [discriminate|]]].
    + intros fuel Hf. unfold try_swap. rewrite Esw. cbn [mbind outcome_bind]. destruct (Ek fuel Hf) as (ops' & E & ->). rewrite E. cbn [mbind outcome_bind]. rewrite Elt. reflexivity.
    + intros _. exists chain1, (swap_rank D u v), D1. split; [split; auto|]. split; [reflexivity|]. apply N.ltb_lt, Elt.
  - exists k, ops3, (D 0), false. split; [|split; [exact F3|split; [|discriminate]]].
    + intros fuel Hf. unfold try_swap. rewrite Esw. cbn [mbind outcome_bind]. destruct (Ek fuel Hf) as (ops' & E & ->). rewrite E. cbn [mbind outcome_bind]. rewrite Elt, Esw2. reflexivity.
    + intros _. split; [reflexivity|]. split; [split; auto|]. exists (swap_rank D u v), D1. split; [exact O1|]. split; [exact R1|]. split; [exact S1|]. apply N.ltb_ge, Elt.
Qed.

Lemma try_blocks_spec chain rank D len blocks : forall i ops, plan chain rank D ops -> Forall (critical_block chain D) blocks ->
  exists k ops' m upd, (forall fuel, k <= fuel -> try_blocks fuel ops (D 0) i len blocks = Ok (ops', m, upd)) /\ map op_finish ops' = map op_finish ops /\
    (upd = false -> m = D 0 /\ plan chain rank D ops' /\ tried chain D i len blocks) /\
    (upd = true -> exists chain' rank' D', plan chain' rank' D' ops' /\ m = D' 0 /\ (m < D 0%nat)%N).
Proof.
  induction blocks as [|block blocks IH]; intros i ops P Hb.
  { exists 0, ops, (D 0), false. split; [reflexivity|]. split; [reflexivity|]. split; [|discriminate]. intros _. split; [reflexivity|]. split; [exact P|]. intros q block Hq. destruct q; discriminate. }
  apply Forall_cons in Hb as [Hblock Hb].
  (* first attempt *)
  assert (S1 : exists k ops' m upd, (forall fuel, k <= fuel ->
      (if decide (0 < i /\ 2 <= length block) then u ← index block 0; v ← index block 1; try_swap fuel ops (D 0) u v else Ok (ops, D 0, false)) = Ok (ops', m, upd)) /\ map op_finish ops' = map op_finish ops /\
      (upd = false -> m = D 0 /\ plan chain rank D ops' /\ (forall u v y, block = u :: v :: y -> 0 < i -> no_gain chain D u v)) /\ (upd = true -> exists chain' rank' D', plan chain' rank' D' ops' /\ m = D' 0 /\ (m < D 0%nat)%N)).
  { destruct (decide (0 < i /\ 2 <= length block)) as [[_ H2]|Hno].
    - destruct block as [|u [|v y]]; cbn [length] in H2; [lia|lia|]. cbn [index lookup list_lookup mbind outcome_bind]. destruct (try_swap_spec chain rank D ops u v P (Hblock [] u v y eq_refl)) as (k & ops' & m & upd & A & B & C & E).
      exists k, ops', m, upd. split; [exact A|]. split; [exact B|]. split; [|exact E]. intros Hu. destruct (C Hu) as (C1 & C2 & C3). split; [exact C1|]. split; [exact C2|]. intros u' v' y' [= <- <- <-] _. exact C3.
    - exists 0, ops, (D 0), false. split; [reflexivity|]. split; [reflexivity|]. split; [|discriminate]. intros _. split; [reflexivity|]. split; [exact P|]. intros u v y -> Hi. exfalso. apply Hno. cbn [length]. lia. }
  destruct S1 as (k1 & ops1 & m1 & upd1 & E1 & F1 & N1 & U1). destruct upd1.
  { exists k1, ops1, m1, true. split; [|split; [exact F1|split; [discriminate|exact U1]]]. intros fuel Hf. cbn [try_blocks]. rewrite (E1 fuel Hf). cbn [mbind outcome_bind].
    rewrite decide_False by (intros (_ & ? & _); discriminate). reflexivity. }
  destruct (N1 eq_refl) as (-> & P1 & G1). clear N1 U1.
  assert (S2 : exists k ops' m upd, (forall fuel, k <= fuel ->
      (if decide (i <> len - 1 /\ false = false /\ 2 <= length block) then v ← index block (length block - 1); u ← index block (length block - 2); try_swap fuel ops1 (D 0) u v else Ok (ops1, D 0, false)) = Ok (ops', m, upd)) /\ map op_finish ops' = map op_finish ops /\
      (upd = false -> m = D 0 /\ plan chain rank D ops' /\ (forall x u v, block = x ++ [u; v] -> i <> len - 1 -> no_gain chain D u v)) /\ (upd = true -> exists chain' rank' D', plan chain' rank' D' ops' /\ m = D' 0 /\ (m < D 0%nat)%N)).
  { clear G1. destruct (decide (i <> len - 1 /\ false = false /\ 2 <= length block)) as [(_ & _ & H2)|Hno].
    - destruct block as [|v block1] using rev_ind; [cbn in H2; lia|]. destruct block1 as [|u x] using rev_ind; [cbn in H2; lia|]. clear IHblock1 IHx.
      rewrite <- app_assoc in *. cbn [app] in *. rewrite app_length. cbn [length]. replace (length x + 2 - 1) with (length x + 1) by lia. replace (length x + 2 - 2) with (length x + 0) by lia.
      unfold index. rewrite !lookup_app_r by lia. replace (length x + 1 - length x) with 1 by lia. replace (length x + 0 - length x) with 0 by lia. cbn [lookup list_lookup mbind outcome_bind].
      destruct (try_swap_spec chain rank D ops1 u v P1 (Hblock x u v [] eq_refl)) as (k & ops2 & m & upd & E & F & G & U). exists k, ops2, m, upd. split; [exact E|]. split; [congruence|]. split; [|exact U]. intros Hu. destruct (G Hu) as (C1 & C2 & C3). split; [exact C1|]. split; [exact C2|].
      intros x' u' v' Ex _. change (x ++ [u; v]) with (x ++ [u] ++ [v]) in Ex. change (x' ++ [u'; v']) with (x' ++ [u'] ++ [v']) in Ex. rewrite !app_assoc in Ex. apply app_inj_tail in Ex as [Ex <-]. apply app_inj_tail in Ex as [_ <-]. exact C3.
    - exists 0, ops1, (D 0), false. split; [reflexivity|]. split; [exact F1|]. split; [|discriminate]. intros _. split; [reflexivity|]. split; [exact P1|]. intros x u v -> Hi. exfalso. apply Hno. rewrite app_length. cbn [length]. split; [exact Hi|]. split; [reflexivity|lia]. }
  destruct S2 as (k2 & ops2 & m2 & upd2 & E2 & F2 & N2 & U2). destruct upd2.
  { exists (k1 + k2), ops2, m2, true. split; [|split; [exact F2|split; [discriminate|exact U2]]]. intros fuel Hf. cbn [try_blocks]. rewrite (E1 fuel) by lia. cbn [mbind outcome_bind].
    rewrite (E2 fuel) by lia. reflexivity. }
  destruct (N2 eq_refl) as (-> & P2 & G2). clear N2 U2. destruct (IH (i + 1) ops2 P2 Hb) as (k3 & ops3 & m3 & upd3 & E3 & F3 & G3 & U3).
  exists (k1 + k2 + k3), ops3, m3, upd3. split; [|split; [congruence|split; [|exact U3]]].
  2:{ intros Hu. destruct (G3 Hu) as (C1 & C2 & C3). split; [exact C1|]. split; [exact C2|]. intros q blk Hq. destruct q as [|q]; cbn in Hq.
      - injection Hq as <-. rewrite Nat.add_0_r. auto.
      - replace (i + Datatypes.S q) with (i + 1 + q) by lia. exact (C3 q blk Hq). }
  intros fuel Hf. cbn [try_blocks]. rewrite (E1 fuel) by lia. cbn [mbind outcome_bind].
  rewrite (E2 fuel) by lia. cbn [mbind outcome_bind]. apply E3. lia.
Qed.

(** No exchange at a border of a block of some critical path makes the plan shorter *)
Definition optimum (chain : nat -> list nat) (D : nat -> N) : Prop := exists blocks, critical_route chain D blocks /\ Forall (critical_block chain D) blocks /\ tried chain D 0 (length blocks) blocks.
Lemma local_search_loop_spec : forall r chain rank D ops, N.to_nat (D 0) < r -> plan chain rank D ops ->
  exists k ops' chain' rank' D', (forall rounds fuel, k <= rounds -> k <= fuel -> local_search_loop rounds fuel ops = Ok (ops', D' 0)) /\ map op_finish ops' = map op_finish ops /\
    plan chain' rank' D' ops' /\ (D' 0%nat <= D 0%nat)%N /\ optimum chain' D'.
Proof.
  induction r as [|r IH]; intros chain rank D ops Hr P; [lia|]. pose proof P as (O & R & S & Sh).
  destruct (determine_makespan_spec chain rank D ops O R S Sh) as (k1 & E1). set (ops1 := imap (mark D chain) ops) in *.
  destruct (critical_blocks_spec chain rank D ops O R S Sh) as (k2 & blocks & Rt & Hb & E2). fold ops1 in E2.
  assert (P1 : plan chain rank D ops1). { split; [exact O|]. split; [exact R|]. split; [exact S|]. apply mark_shaped, Sh. }
  assert (F1 : map op_finish ops1 = map op_finish ops) by apply mark_finish.
  destruct (try_blocks_spec chain rank D (length blocks) blocks 0 ops1 P1 Hb) as (k3 & ops2 & m & upd & E3 & F2 & N3 & U3). destruct upd.
  - destruct (U3 eq_refl) as (chain' & rank' & D' & P' & -> & Hlt). destruct (IH chain' rank' D' ops2 ltac:(lia) P') as (k4 & ops3 & chain2 & rank2 & D2 & E4 & F4 & P4 & Hle & Opt).
    exists (Datatypes.S (k1 + k2 + k3 + k4)), ops3, chain2, rank2, D2. split; [|split; [congruence|split; [exact P4|split; [lia|exact Opt]]]]. intros rounds fuel Hro Hf. destruct rounds as [|rounds]; [lia|].
    cbn [local_search_loop]. destruct (E1 fuel ltac:(lia)) as (ops' & E & ->). rewrite E. cbn [mbind outcome_bind]. fold ops1. rewrite (E2 fuel) by lia. cbn [mbind outcome_bind].
    rewrite (E3 fuel) by lia. cbn [mbind outcome_bind]. apply E4; lia.
  - destruct (N3 eq_refl) as (-> & P' & Td). exists (Datatypes.S (k1 + k2 + k3)), ops2, chain, rank, D. split; [|split; [congruence|split; [exact P'|split; [lia|exists blocks; auto]]]]. intros rounds fuel Hro Hf. destruct rounds as [|rounds]; [lia|].
    cbn [local_search_loop]. destruct (E1 fuel ltac:(lia)) as (ops' & E & ->). rewrite E. cbn [mbind outcome_bind]. fold ops1. rewrite (E2 fuel) by lia. cbn [mbind outcome_bind].
    rewrite (E3 fuel) by lia. reflexivity.
Qed.
Theorem local_search_spec chain rank ops : orders chain -> ranked chain rank -> shaped chain ops ->
  exists k ops' chain' rank' D', (forall fuel, k <= fuel -> local_search fuel ops = Ok (ops', D' 0)) /\ map op_finish ops' = map op_finish ops /\
    plan chain' rank' D' ops' /\ (D' 0%nat <= dist chain rank 0%nat)%N /\ optimum chain' D'.
Proof.
  intros O R Sh. destruct (local_search_loop_spec (Datatypes.S (N.to_nat (dist chain rank 0))) chain rank (dist chain rank) ops ltac:(lia)) as (k & ops' & chain' & rank' & D' & E & F & P & Hle & Opt).
  { split; [exact O|]. split; [exact R|]. split; [apply dist_solves, R|exact Sh]. }
  exists k, ops', chain', rank', D'. split; [intros fuel Hf; apply E; exact Hf|]. auto.
Qed.
End Search.

(** ** The schedule of a plan: every operation as late as the makespan allows *)
Section Late.
Context (chain : nat -> list nat) (rank : nat -> nat) (D : nat -> N).
Context (O : orders chain) (R : ranked chain rank) (S : solves chain D).
Lemma D_job i : 1 <= i <= n -> (dur i + D (jsucc i) <= D i)%N.
Proof.
  intros Hi. pose proof (edge_dist chain D i (Edge (jsucc i) JobSucc) S) as H. unfold vdur in H. rewrite decide_True in H by exact Hi. apply H. unfold succs. rewrite decide_False, decide_True by lia. left.
Qed.
Lemma D_next i j : 1 <= i <= n -> next (chain (mach i)) i = Some j -> (dur i + D j <= D i)%N.
Proof.
  intros Hi Hn. pose proof (edge_dist chain D i (Edge j MachineSucc) S) as H. unfold vdur in H. rewrite decide_True in H by exact Hi. apply H. unfold succs. rewrite decide_False, decide_True by lia. rewrite Hn. right. left.
Qed.
Lemma D_dur i : 1 <= i <= n -> (dur i <= D i)%N.
Proof. intros Hi. pose proof (D_job i Hi). lia. Qed.
Lemma D_le_0 i : 1 <= i <= n -> (D i <= D 0%nat)%N.
Proof.
  induction i as [i IH] using lt_wf_ind. intros Hi. pose proof (jpred_lt i Hi) as Hp. destruct (decide (jpred i = 0)) as [E|E].
  - destruct (zedges_first i Hi E) as (e & He & <-). pose proof (edge_dist chain D 0 e S) as H. unfold vdur in H. rewrite decide_False in H by lia. rewrite N.add_0_l in H. apply H. unfold succs. rewrite decide_True by reflexivity. exact He.
  - specialize (IH (jpred i) Hp ltac:(lia)). pose proof (D_job (jpred i) ltac:(lia)) as H. rewrite jsucc_jpred in H by lia. lia.
Qed.
Lemma D_chain m a i b j : chain m = a ++ i :: b -> j ∈ b -> (dur i + D j <= D i)%N.
Proof.
  revert a i j. induction b as [|x b IH]; intros a i j Ec Hj; [apply elem_of_nil in Hj; tauto|].
  destruct (O m) as [Nd Hin]. assert (Mi : 1 <= i <= n /\ mach i = m) by (apply Hin; rewrite Ec; apply elem_of_app; right; left).
  assert (Hx : (dur i + D x <= D i)%N).
  { apply D_next; [apply Mi|]. destruct Mi as [_ ->]. rewrite Ec, next_app; [reflexivity|]. rewrite Ec in Nd. apply NoDup_app in Nd as (_ & Nd & _). intros H. apply (Nd i H). left. }
  apply elem_of_cons in Hj as [->|Hj]; [exact Hx|]. specialize (IH (a ++ [i]) x j). rewrite <- app_assoc in IH. specialize (IH Ec Hj). lia.
Qed.
Lemma D_machine i j : 1 <= i <= n -> 1 <= j <= n -> i <> j -> mach i = mach j -> (dur i + D j <= D i)%N \/ (dur j + D i <= D j)%N.
Proof.
  intros Hi Hj Hij Em. destruct (O (mach i)) as [Nd Hin]. assert (Ii : i ∈ chain (mach i)) by (apply Hin; auto). assert (Ij : j ∈ chain (mach i)) by (apply Hin; auto).
  destruct (split_in _ _ Ii) as (a & b & Ec & Ha). rewrite Ec in Ij. apply elem_of_app in Ij as [Ij|Ij].
  - right. destruct (split_in _ _ Ij) as (a1 & a2 & -> & _). rewrite <- app_assoc in Ec. cbn [app] in Ec. apply (D_chain _ _ _ _ i Ec). apply elem_of_app. right. left.
  - apply elem_of_cons in Ij as [->|Ij]; [congruence|]. left. apply (D_chain _ _ _ _ j Ec Ij).
Qed.
Lemma D_last : exists i, 1 <= i <= n /\ D i = dur i.
Proof.
  assert (G : forall r v, rank v < r -> 1 <= v <= n -> exists i, 1 <= i <= n /\ D i = dur i).
  { induction r as [|r IH]; intros v Hr Hv; [lia|]. destruct (max_dist_in D (succs chain v) (succs_ne chain v ltac:(lia))) as (e & He & E).
    destruct (succs_range chain v e O He) as (Hre & _). destruct (decide (neigh_id e = n + 1)) as [Es|Es].
    - exists v. split; [exact Hv|]. rewrite (S v), E, Es. rewrite (S (n + 1)), succs_sink. unfold vdur. rewrite decide_True by exact Hv. rewrite decide_False by lia. cbn [max_dist]. lia.
    - apply (IH (neigh_id e)); [pose proof (R v e He); lia|lia]. }
  apply (G (Datatypes.S (rank 1)) 1); lia.
Qed.
End Late.
End Graph.
