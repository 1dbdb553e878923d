(** * The operators and the run of the job shop example *)
From Verif Require Import PopulationProofs.
From Verif Require Import CrossoverProofs.
From Verif Require Export JsspTheorems.
Open Scope nat_scope.

(** ** Generating individuals *)
Lemma generate_fresh nm jobs p count r : valid_shop nm jobs -> load nm jobs = Ok p -> exists pop r', generate_jssp p count r = Ok (pop, r') /\ length pop = count /\ Forall (fun x => exists c, genes_for jobs c /\ x = fresh p c) pop.
Proof.
  intros V Lp. rewrite load_spec in Lp by apply V. injection Lp as <-. unfold generate_jssp. cbn [p_ops]. rewrite shop_ops_length. rewrite decide_True by lia. replace (n_tasks jobs + 2 - 2) with (n_tasks jobs) by lia.
  unfold generate_with_single_constraint. destruct (generate_points_spec (2 * n_tasks jobs) count (replicate (2 * n_tasks jobs) (f0, f1)) r) as [_ B]. destruct B as (pts & r' & E & L & F); [rewrite replicate_length; reflexivity|].
  rewrite E. cbn [mbind outcome_bind]. eexists _, r'. split; [reflexivity|]. split; [rewrite map_length; exact L|].
  apply Forall_fmap. eapply Forall_impl; [exact F|]. intros c Hc. exists c. split; [|reflexivity]. split; [apply Forall2_length in Hc; rewrite replicate_length in Hc; congruence|].
  apply Forall_forall. intros x Hx. apply elem_of_list_lookup in Hx as [i Hx]. destruct (Forall2_lookup_r _ _ _ i x Hc Hx) as (cc & Hcc & u & Hu & ->). apply lookup_replicate in Hcc as [-> _].
  assert (A : finite_f64 f0) by (split; reflexivity). assert (B : finite_f64 f1) by (split; reflexivity). destruct (scale_within f0 f1 u A B eq_refl eq_refl Hu) as ([V1 _] & V2 & V3). auto.
Qed.

(** ** Crossover *)
Lemma mix_spec mask : forall locus c1 c2, (forall i, i < length mask -> is_Some (c1 !! (locus + i)) /\ is_Some (c2 !! (locus + i))) ->
  exists k1 k2, mix_genes locus mask c1 c2 = Ok (k1, k2) /\ length k1 = length mask /\ length k2 = length mask /\
    forall i v a b, mask !! i = Some v -> c1 !! (locus + i) = Some a -> c2 !! (locus + i) = Some b -> k1 !! i = Some (if fle v f_0_6 then a else b) /\ k2 !! i = Some (if fle v f_0_6 then b else a).
Proof.
  induction mask as [|v mask IH]; intros locus c1 c2 H; [exists [], []; cbn; repeat split; auto; discriminate|]. cbn [mix_genes].
  destruct (H 0 ltac:(cbn; lia)) as [[a Ha] [b Hb]]. rewrite Nat.add_0_r in Ha, Hb. rewrite (index_eq _ _ _ Ha). cbn [mbind outcome_bind]. rewrite (index_eq _ _ _ Hb). cbn [mbind outcome_bind].
  destruct (IH (S locus) c1 c2) as (k1 & k2 & E & L1 & L2 & G). { intros i Hi. specialize (H (S i) ltac:(cbn; lia)). rewrite <- plus_n_Sm in H. exact H. }
  rewrite E. cbn [mbind outcome_bind]. destruct (fle v f_0_6) eqn:Ev; eexists _, _; (split; [reflexivity|]); cbn [length]; rewrite L1, L2; (split; [reflexivity|]); (split; [reflexivity|]);
    intros [|i] v' a' b' Hv Ha' Hb'; cbn [lookup list_lookup] in Hv |- *.
  1, 3: injection Hv as <-; rewrite Nat.add_0_r in Ha', Hb'; rewrite Ev; rewrite Ha in Ha'; rewrite Hb in Hb'; injection Ha' as <-; injection Hb' as <-; auto.
  all: rewrite <- plus_n_Sm in Ha', Hb'; exact (G i v' a' b' Hv Ha' Hb').
Qed.
Lemma crossover_single p1 p2 r : length (j_chromosome p1) <= length (j_chromosome p2) ->
  exists k1 k2 r', jssp_crossover_single p1 p2 r = Ok (with_genes k1 p1, with_genes k2 p2, r') /\ swapped (keeps r) (j_chromosome p1) (j_chromosome p2) k1 k2.
Proof.
  intros L. unfold jssp_crossover_single. destruct (repeatM_uni (length (j_chromosome p1)) r) as [r' ->].
  destruct (mix_spec ((fun l => f_unit 52 (r l mod 2 ^ 52)) <$> seq 0 (length (j_chromosome p1))) 0 (j_chromosome p1) (j_chromosome p2)) as (k1 & k2 & E & L1 & L2 & G).
  { intros i Hi. rewrite fmap_length, seq_length in Hi. split; apply lookup_lt_is_Some_2; lia. }
  rewrite E. cbn [mbind outcome_bind]. exists k1, k2, r'. split; [reflexivity|]. rewrite fmap_length, seq_length in L1, L2. split; [exact L1|]. split; [exact L2|]. intros i a b Ha Hb. apply (G i _ a b); [|exact Ha|exact Hb].
  rewrite list_lookup_fmap, lookup_seq_lt by (apply lookup_lt_Some in Ha; exact Ha). reflexivity.
Qed.
Lemma mix_short mask : forall locus c1 c2, locus <= length c2 -> length c2 < locus + length mask -> locus + length mask <= length c1 -> mix_genes locus mask c1 c2 = Panic.
Proof.
  induction mask as [|v mask IH]; intros locus c1 c2 H0 H1 H2; cbn [length] in *; [lia|]. cbn [mix_genes]. destruct (lookup_lt_is_Some_2 c1 locus ltac:(lia)) as [a Ha]. rewrite (index_eq _ _ _ Ha). cbn [mbind outcome_bind].
  destruct (c2 !! locus) as [b|] eqn:Hb.
  - rewrite (index_eq _ _ _ Hb). cbn [mbind outcome_bind]. apply lookup_lt_Some in Hb. rewrite IH; [reflexivity|lia|lia|lia].
  - unfold index. rewrite Hb. reflexivity.
Qed.
Lemma crossover_single_short p1 p2 r : length (j_chromosome p2) < length (j_chromosome p1) -> jssp_crossover_single p1 p2 r = Panic.
Proof.
  intros L. unfold jssp_crossover_single. destruct (repeatM (length (j_chromosome p1)) uni_f64 r) as [mask r'] eqn:E. apply repeatM_length in E. rewrite mix_short; [reflexivity|lia|lia|lia].
Qed.
Definition child_of (jobs : shop) (parents : list jind) (x : jind) : Prop := exists p c, p ∈ parents /\ genes_for jobs c /\ x = with_genes c p.
Lemma swapped_genes jobs keep c1 c2 k1 k2 : genes_for jobs c1 -> genes_for jobs c2 -> swapped keep c1 c2 k1 k2 -> genes_for jobs k1 /\ genes_for jobs k2.
Proof.
  intros [L1 G1] [L2 G2] (K1 & K2 & S). rewrite Forall_forall in G1, G2.
  assert (H : forall i, i < length c1 -> exists a b, c1 !! i = Some a /\ c2 !! i = Some b). { intros i Hi. destruct (lookup_lt_is_Some_2 c1 i Hi) as [a Ha]. destruct (lookup_lt_is_Some_2 c2 i ltac:(lia)) as [b Hb]. eauto. }
  split; (split; [lia|]); apply Forall_forall; intros x Hx; apply elem_of_list_lookup in Hx as [i Hx].
  - change (k1 !! i = @Some f64 x) in Hx. destruct (H i) as (a & b & Ha & Hb); [rewrite <- K1; exact (lookup_lt_Some _ _ _ Hx)|]. destruct (S i a b Ha Hb) as [E _]. rewrite Hx in E. apply (inj Some) in E as ->. destruct (keep i); [apply G1|apply G2]; eapply elem_of_list_lookup_2; eauto.
  - change (k2 !! i = @Some f64 x) in Hx. destruct (H i) as (a & b & Ha & Hb); [rewrite <- K2; exact (lookup_lt_Some _ _ _ Hx)|]. destruct (S i a b Ha Hb) as [_ E]. rewrite Hx in E. apply (inj Some) in E as ->. destruct (keep i); [apply G2|apply G1]; eapply elem_of_list_lookup_2; eauto.
Qed.
Lemma crossover_pairs jobs : forall len sel r, length sel <= len -> Nat.even (length sel) = true -> Forall (fun x => genes_for jobs (j_chromosome x)) sel ->
  exists kids r', jssp_crossover_pairs sel r = Ok (kids, r') /\ length kids = length sel /\ Forall (child_of jobs sel) kids.
Proof.
  induction len as [|len IH]; intros sel r L Ev G.
  - destruct sel; [|cbn in L; lia]. exists [], r. auto.
  - destruct sel as [|p1 [|p2 rest]]; [exists [], r; auto|discriminate|]. apply Forall_cons in G as [G1 G]. apply Forall_cons in G as [G2 G]. cbn [jssp_crossover_pairs].
    destruct (crossover_single p1 p2 r) as (k1 & k2 & r1 & E & Sw); [destruct G1, G2; lia|]. rewrite E. cbn [mbind outcome_bind].
    destruct (IH rest r1 ltac:(cbn in L; lia) Ev G) as (kids & r' & E2 & Lk & F). rewrite E2. cbn [mbind outcome_bind]. eexists _, r'. split; [reflexivity|]. split; [cbn; lia|].
    destruct (swapped_genes jobs _ _ _ _ _ G1 G2 Sw) as [K1 K2]. constructor; [exists p1, k1; repeat split; auto; try left; apply K1|]. constructor; [exists p2, k2; repeat split; auto; try apply K2; right; left|].
    eapply Forall_impl; [exact F|]. intros x (p & c & Hp & Hc & ->). exists p, c. split; [right; right; exact Hp|]. auto.
Qed.
Lemma crossover_spec jobs sel r : Nat.even (length sel) = true -> Forall (fun x => genes_for jobs (j_chromosome x)) sel ->
  exists kids r', jssp_crossover sel r = Ok (kids, r') /\ length kids = length sel /\ Forall (child_of jobs sel) kids.
Proof. intros Ev G. unfold jssp_crossover. rewrite Ev. cbn [rassert mbind outcome_bind]. exact (crossover_pairs jobs (length sel) sel r ltac:(lia) Ev G). Qed.

(** ** Replacement *)
Lemma insert_perm x l : insert_sorted x l ≡ₚ x :: l.
Proof. induction l as [|y l IH]; cbn; [reflexivity|]. destruct (_ <=? _)%N; [reflexivity|]. rewrite IH. apply Permutation_swap. Qed.
Lemma sort_perm l : sort_population l ≡ₚ l.
Proof. induction l as [|x l IH]; cbn; [reflexivity|]. rewrite insert_perm, IH. reflexivity. Qed.
Definition ordered (l : list jind) : Prop := forall a x b y c, l = a ++ x :: b ++ y :: c -> (j_fitness x <= j_fitness y)%N.
Inductive sorted : list jind -> Prop := sorted_nil : sorted [] | sorted_cons x l : Forall (fun y => (j_fitness x <= j_fitness y)%N) l -> sorted l -> sorted (x :: l).
Lemma insert_sorted_sorted x l : sorted l -> sorted (insert_sorted x l).
Proof.
  induction 1 as [|y l F S IH]; cbn; [constructor; constructor|]. destruct (N.leb_spec (j_fitness x) (j_fitness y)) as [H|H].
  - constructor; [|constructor; assumption]. constructor; [exact H|]. eapply Forall_impl; [exact F|]. cbn. lia.
  - constructor; [|exact IH]. rewrite insert_perm. constructor; [lia|exact F].
Qed.
Lemma sort_sorted l : sorted (sort_population l).
Proof. induction l; cbn; [constructor|]. apply insert_sorted_sorted. assumption. Qed.
Lemma sorted_app a b : sorted (a ++ b) -> forall x y, x ∈ a -> y ∈ b -> (j_fitness x <= j_fitness y)%N.
Proof.
  induction a as [|z a IH]; intros S x y Hx Hy; [apply elem_of_nil in Hx; tauto|]. inversion S as [|? ? F S']; subst. apply elem_of_cons in Hx as [->|Hx]; [|exact (IH S' x y Hx Hy)].
  rewrite Forall_forall in F. apply F. apply elem_of_app. right. exact Hy.
Qed.
Lemma take_children_spec : forall count i children pre old rest, i = length pre -> length old = count -> count <= length children ->
  take_children i children count (pre ++ old ++ rest) = Ok (pre ++ take count children ++ rest).
Proof.
  induction count as [|count IH]; intros i children pre old rest Ei Lo Lc; [destruct old; [destruct children; reflexivity|discriminate]|].
  destruct children as [|c cs]; [cbn in Lc; lia|]. cbn [take_children]. destruct old as [|o old]; [discriminate|]. unfold assign. rewrite decide_True by (rewrite !app_length; cbn; lia). cbn [mbind outcome_bind].
  assert (E : <[i := c]> (pre ++ (o :: old) ++ rest) = (pre ++ [c]) ++ old ++ rest). { rewrite Ei. rewrite <- (Nat.add_0_r (length pre)). rewrite insert_app_r. cbn. rewrite <- app_assoc. reflexivity. }
  rewrite E, (IH (S i) cs (pre ++ [c]) old rest) by (rewrite ?app_length; cbn in *; lia). cbn [take]. rewrite <- app_assoc. reflexivity.
Qed.
Lemma take_children_short : forall count i children pop, length children < count -> take_children i children count pop = Panic \/ exists j, take_children i children count pop = Panic /\ j = i.
Proof.
  induction count as [|count IH]; intros i children pop L; [lia|]. destruct children as [|c cs]; cbn [take_children]; [auto|]. unfold assign. destruct (decide (i < length pop)); [|auto]. cbn [mbind outcome_bind].
  destruct (IH (S i) cs (<[i := c]> pop) ltac:(cbn in L; lia)) as [->|(j & -> & _)]; auto.
Qed.
Lemma replace_spec nm jobs p er sr pop children r : valid_shop nm jobs -> load nm jobs = Ok p ->
  let n := length pop in let e := part er n in let s := part sr n in
  e + s <= n -> 0 < e + s -> n - e - s <= length children ->
  exists best rest new r', jssp_replace p er sr pop children r = Ok (best ++ take (n - e - s) children ++ new, r') /\
    pop ≡ₚ best ++ rest /\ length best = e /\ (forall x y, x ∈ best -> y ∈ rest -> (j_fitness x <= j_fitness y)%N) /\ length new = s /\ Forall (fun x => exists c, genes_for jobs c /\ x = fresh p c) new.
Proof.
  intros V Lp n e s H1 H2 H3. unfold jssp_replace. fold n. fold (part er n) (part sr n). fold e s. rewrite (decide_True (P := e + s <= n)) by lia. cbn [mbind outcome_bind].
  rewrite bool_decide_eq_true_2 by lia. cbn [rassert mbind outcome_bind]. set (pop' := if decide (0 < e) then sort_population pop else pop).
  assert (P : pop' ≡ₚ pop) by (unfold pop'; destruct (decide (0 < e)); [apply sort_perm|reflexivity]). assert (Ln : length pop' = n) by (rewrite P; reflexivity).
  set (best := take e pop'). set (mid := take (n - e - s) (drop e pop')). set (last := drop (n - e - s) (drop e pop')).
  assert (E : pop' = best ++ mid ++ last). { unfold best, mid, last. rewrite (take_drop (n - e - s)), take_drop. reflexivity. }
  assert (Lb : length best = e) by (unfold best; rewrite take_length; lia). assert (Lm : length mid = n - e - s) by (unfold mid; rewrite take_length, drop_length; lia).
  assert (Ll : length last = s) by (unfold last; rewrite !drop_length; lia).
  replace (take_children e children (n - e - s) pop') with (Ok (best ++ take (n - e - s) children ++ last)) by (rewrite E; symmetry; apply take_children_spec; auto). cbn [mbind outcome_bind].
  assert (Hb : forall x y, x ∈ best -> y ∈ mid ++ last -> (j_fitness x <= j_fitness y)%N).
  { intros x y Hx Hy. assert (S : sorted pop'). { unfold pop'. destruct (decide (0 < e)); [apply sort_sorted|]. exfalso. destruct best; [apply elem_of_nil in Hx; tauto|cbn in Lb; lia]. } rewrite E in S. exact (sorted_app _ _ S x y Hx Hy). }
  assert (Pp : pop ≡ₚ best ++ (mid ++ last)) by (rewrite <- P; rewrite E at 1; reflexivity).
  destruct (decide (0 < s)) as [Hs|Hs].
  - destruct (generate_fresh nm jobs p s r V Lp) as (new & r' & Eg & Lg & Fg). rewrite Eg. cbn [mbind outcome_bind]. exists best, (mid ++ last), new, r'. split; [|auto].
    f_equal. f_equal. rewrite app_assoc, take_app_alt by (rewrite app_length, take_length; lia). rewrite <- app_assoc. reflexivity.
  - destruct last; [|cbn in Ll; lia]. exists best, (mid ++ []), [], r. auto 10.
Qed.
Lemma replace_panics p er sr pop children r : let n := length pop in let e := part er n in let s := part sr n in
  n < e + s \/ e + s = 0 \/ (e + s <= n /\ length children < n - e - s) -> jssp_replace p er sr pop children r = Panic.
Proof.
  intros n e s H. unfold jssp_replace. fold n. fold (part er n) (part sr n). fold e s. destruct (decide (e + s <= n)) as [H1|H1]; [|reflexivity]. cbn [mbind outcome_bind].
  destruct (decide (n - e - s < n)) as [H2|H2]; [rewrite bool_decide_eq_true_2 by exact H2|rewrite bool_decide_eq_false_2 by exact H2; reflexivity]. cbn [rassert mbind outcome_bind].
  destruct H as [?|[?|[_ H]]]; [lia|lia|]. destruct (take_children_short (n - e - s) e children (if decide (0 < e) then sort_population pop else pop) H) as [->|(? & -> & _)]; reflexivity.
Qed.

(** ** All pairs: pair number q uses its own draws *)
Lemma repeatM_uni_rest n : forall r, repeatM n uni_f64 r = ((fun l => f_unit 52 (r l mod 2 ^ 52)) <$> seq 0 n, fun i => r (n + i)).
Proof.
  induction n as [|n IH]; intros r; [reflexivity|]. change (repeatM (S n) uni_f64 r) with (let '(x, r1) := uni_f64 r in let '(xs, r2) := repeatM n uni_f64 r1 in (x :: xs, r2)). unfold uni_f64 at 1. rewrite IH.
  f_equal. change (seq 0 (S n)) with (0 :: seq 1 n). rewrite fmap_cons. f_equal. rewrite <- fmap_S_seq. rewrite <- list_fmap_compose. reflexivity.
Qed.
Lemma crossover_single_rest p1 p2 r : length (j_chromosome p1) <= length (j_chromosome p2) ->
  exists k1 k2, jssp_crossover_single p1 p2 r = Ok (with_genes k1 p1, with_genes k2 p2, fun i => r (length (j_chromosome p1) + i)) /\ swapped (keeps r) (j_chromosome p1) (j_chromosome p2) k1 k2.
Proof.
  intros L. destruct (crossover_single p1 p2 r L) as (k1 & k2 & r' & E & S). exists k1, k2. split; [|exact S]. rewrite E. unfold jssp_crossover_single in E. rewrite repeatM_uni_rest in E.
  destruct (mix_genes _ _ _ _) as [[c1 c2]| |]; [|discriminate|discriminate]. cbn [mbind outcome_bind] in E. injection E as _ _ E. rewrite E. reflexivity.
Qed.
Lemma crossover_pairs_all L : forall len sel r, length sel <= len -> Nat.even (length sel) = true -> Forall (fun x => length (j_chromosome x) = L) sel ->
  exists kids r', jssp_crossover_pairs sel r = Ok (kids, r') /\ length kids = length sel /\
  forall q p1 p2, sel !! (2 * q) = Some p1 -> sel !! (2 * q + 1) = Some p2 -> exists k1 k2, kids !! (2 * q) = Some (with_genes k1 p1) /\ kids !! (2 * q + 1) = Some (with_genes k2 p2) /\
    swapped (fun i => keeps r (q * L + i)) (j_chromosome p1) (j_chromosome p2) k1 k2.
Proof.
  induction len as [|len IH]; intros sel r Hl Ev G.
  - destruct sel; [|cbn in Hl; lia]. exists [], r. split; [reflexivity|]. split; [reflexivity|]. intros q p1 p2 H. discriminate.
  - destruct sel as [|p1 [|p2 rest]]; [exists [], r; split; [reflexivity|]; split; [reflexivity|]; intros q p1 p2 H; discriminate|discriminate|]. apply Forall_cons in G as [G1 G]. apply Forall_cons in G as [G2 G]. cbn [jssp_crossover_pairs].
    destruct (crossover_single_rest p1 p2 r ltac:(lia)) as (k1 & k2 & E & Sw). rewrite E. cbn [mbind outcome_bind]. rewrite G1.
    destruct (IH rest (fun i => r (L + i)) ltac:(cbn in Hl; lia) Ev G) as (kids & r' & E2 & Lk & F). rewrite E2. cbn [mbind outcome_bind]. eexists _, r'. split; [reflexivity|]. split; [cbn; lia|].
    intros [|q] q1 q2 H1 H2.
    + cbn in H1, H2. injection H1 as <-. injection H2 as <-. exists k1, k2. split; [reflexivity|]. split; [reflexivity|]. exact Sw.
    + replace (2 * S q) with (S (S (2 * q))) in * by lia. replace (S (S (2 * q)) + 1) with (S (S (2 * q + 1))) in * by lia. destruct (F q q1 q2 H1 H2) as (a & b & F1 & F2 & F3). exists a, b. split; [exact F1|]. split; [exact F2|].
      destruct F3 as (A & B & C). split; [exact A|]. split; [exact B|]. intros i x y Hx Hy. specialize (C i x y Hx Hy). unfold keeps in *. replace (S q * L + i) with (L + (q * L + i)) by lia. exact C.
Qed.
Theorem crossover_all L sel r : Nat.even (length sel) = true -> Forall (fun x => length (j_chromosome x) = L) sel ->
  exists kids r', jssp_crossover sel r = Ok (kids, r') /\ length kids = length sel /\
  forall q p1 p2, sel !! (2 * q) = Some p1 -> sel !! (2 * q + 1) = Some p2 -> exists k1 k2, kids !! (2 * q) = Some (with_genes k1 p1) /\ kids !! (2 * q + 1) = Some (with_genes k2 p2) /\
    swapped (fun i => keeps r (q * L + i)) (j_chromosome p1) (j_chromosome p2) k1 k2.
Proof. intros Ev G. unfold jssp_crossover. rewrite Ev. cbn [rassert mbind outcome_bind]. exact (crossover_pairs_all L (length sel) sel r ltac:(lia) Ev G). Qed.
Theorem crossover_odd sel r : Nat.even (length sel) = false -> jssp_crossover sel r = Panic.
Proof. intros Ev. unfold jssp_crossover. rewrite Ev. reflexivity. Qed.
