(** * With the delay constant of the example, the decoded schedule may never be optimal (C139) *)
From Coq Require Import Reals Lra Psatz.
From Verif Require Import F64R JsspWindowProofs JsspOrderProofs JsspTheorems JsspLimitProofs JsspFloatProofs JsspModel JsspSpec.
From Flocq Require Import Core.
Open Scope nat_scope.

Definition miss_shop : shop := [[(1, 1%N); (2, 1%N); (0, 1%N); (1, 1%N); (2, 1%N)]; [(0, 1%N)]; [(0, 1%N)]; [(0, 1%N)]; [(0, 1%N)]].
Lemma miss_task j k m d : task miss_shop j k m d -> d = 1%N /\ ((j = 0 /\ k < 5 /\ m = nth k [1; 2; 0; 1; 2] 0) \/ (1 <= j <= 4 /\ k = 0 /\ m = 0)).
Proof.
  intros (job & Hj & Hk). destruct j as [|[|[|[|[|j]]]]]; [| | | | |discriminate]; injection Hj as <-.
  - destruct k as [|[|[|[|[|k]]]]]; [| | | | |discriminate]; injection Hk as <- <-; (split; [reflexivity|left; repeat split; lia]).
  - destruct k as [|k]; [|discriminate]; injection Hk as <- <-; (split; [reflexivity|right; repeat split; lia]).
  - destruct k as [|k]; [|discriminate]; injection Hk as <- <-; (split; [reflexivity|right; repeat split; lia]).
  - destruct k as [|k]; [|discriminate]; injection Hk as <- <-; (split; [reflexivity|right; repeat split; lia]).
  - destruct k as [|k]; [|discriminate]; injection Hk as <- <-; (split; [reflexivity|right; repeat split; lia]).
Qed.
Lemma task_chain k : k < 5 -> task miss_shop 0 k (nth k [1; 2; 0; 1; 2] 0) 1.
Proof. intros H. eexists. split; [reflexivity|]. destruct k as [|[|[|[|[|k]]]]]; [reflexivity..|lia]. Qed.
Lemma task_single j : 1 <= j <= 4 -> task miss_shop j 0 0 1.
Proof. intros H. destruct j as [|[|[|[|[|j]]]]]; [lia| | | | |lia]; (eexists; split; reflexivity). Qed.
Lemma dc_R : fvalid dc_example /\ ffinite dc_example = true /\ f2r dc_example = 1.5%R.
Proof.
  assert (E : dc_example = S754_finite false 6755399441055744 (-52)) by (vm_compute; reflexivity). rewrite E. split; [reflexivity|]. split; [reflexivity|].
  unfold f2r, BinarySingleNaN.SF2R, F2R. cbn [Fnum Fexp cond_Zopp]. change (bpow radix2 (-52)) with (/ 4503599627370496)%R. lra.
Qed.
Lemma gene_window x a : is_gene x -> (2 <= a <= 3)%N -> fle (f_of_N a) (fadd (f_of_N 0) (fmul (fmul x dc_example) (f_of_N 1))) = false.
Proof.
  intros Hx Ha. destruct (gene_R x Hx) as [Fx Bx]. destruct Hx as (Vx & _). destruct dc_R as (Vd & Fd & Ed).
  destruct (f_of_N_exact a ltac:(lia)) as (Va & Fa & Ea). destruct (f_of_N_exact 1 ltac:(lia)) as (V1 & F1 & E1). destruct (f_of_N_exact 0 ltac:(lia)) as (V0 & F0 & E0). change (IZR (Z.of_N 0)) with 0%R in E0. change (IZR (Z.of_N 1)) with 1%R in E1.
  pose proof big_bound as BB. assert (Q : (0 <= rnd (f2r x * f2r dc_example) <= 1.5)%R).
  { split; [rewrite <- rnd_0; apply rnd_le; rewrite Ed; nra|]. apply Rle_trans with (rnd (f2r dc_example)); [apply rnd_le; rewrite Ed; nra|rewrite rnd_id by exact Vd; lra]. }
  destruct (fmul_R x dc_example Vx Vd Fx Fd) as [Em Fm]. { rewrite Rabs_pos_eq by lra. lra. } pose proof (fvalid_mul _ _ Vx Vd) as Vm.
  set (q := fmul x dc_example) in *.
  destruct (fmul_R q (f_of_N 1) Vm V1 Fm F1) as [En Fn]. { rewrite E1, Rmult_1_r, rnd_id by exact Vm. rewrite Rabs_pos_eq by lra. lra. } pose proof (fvalid_mul _ _ Vm V1) as Vn.
  rewrite E1, Rmult_1_r, rnd_id in En by exact Vm. set (s := fmul q (f_of_N 1)) in *.
  destruct (fadd_R (f_of_N 0) s V0 Vn F0 Fn) as [Eo Fo]. { rewrite E0, Rplus_0_l, rnd_id by exact Vn. rewrite Rabs_pos_eq by lra. lra. }
  rewrite E0, Rplus_0_l, rnd_id in Eo by exact Vn.
  destruct (fle (f_of_N a) (fadd (f_of_N 0) s)) eqn:C; [|reflexivity]. exfalso. apply fle_R in C; [|exact Va|apply fvalid_add; assumption|exact Fa|exact Fo].
  rewrite Ea, Eo, En, Em in C. assert (2 <= IZR (Z.of_N a))%R by (apply IZR_le; lia). lra.
Qed.
Lemma genes_nth c i : genes_for miss_shop c -> is_gene (nth i c f0).
Proof.
  intros [_ G]. destruct (decide (i < length c)) as [H|H].
  - rewrite Forall_forall in G. apply G. apply elem_of_list_In, nth_In, H.
  - rewrite nth_overflow by lia. split; [reflexivity|split; reflexivity].
Qed.

Lemma last_zero (l : list N) : (forall x, x ∈ l -> x = 0%N) -> List.last l 0%N = 0%N.
Proof.
  induction l as [|x l IH]; intros H; [reflexivity|]. destruct l as [|y l]; [apply H; left|]. change (List.last (x :: y :: l) 0%N) with (List.last (y :: l) 0%N).
  apply IH. intros z Hz. apply H. right. exact Hz.
Qed.
Section Miss.
Context (c : list f64) (G : genes_for miss_shop c) (start : nat -> nat -> N) (order : list (nat * nat)).
Context (PE : placed_earliest miss_shop start order) (PP : placed_by_priority miss_shop dc_example c start order) (Fe : feasible miss_shop start).
Lemma chain_step k : k < 4 -> (start 0 k + 1 <= start 0 (S k))%N.
Proof. intros H. exact (proj1 Fe _ _ _ _ _ _ (task_chain k ltac:(lia)) (task_chain (S k) ltac:(lia))). Qed.
Lemma longest_miss l : longest miss_shop l -> l = 1%N.
Proof. intros (_ & j & k & m & T). exact (proj1 (miss_task _ _ _ _ T)). Qed.
(** As long as one of the single operations is not placed, time stands still, and the third operation of the chain is not placed *)
Lemma chain_waits : (start 0 2 < 4)%N -> forall before j k after i, order = before ++ (j, k) :: after -> 1 <= i <= 4 -> (i, 0) ∉ before -> (j, k) <> (0, 2).
Proof.
  intros Small. destruct PP as (l & times & Hl & Lt & Rule). rewrite (longest_miss l Hl) in Rule. clear l Hl.
  assert (Key : forall len before j k after i, length before = len -> order = before ++ (j, k) :: after -> 1 <= i <= 4 -> (i, 0) ∉ before -> times !! len = Some 0%N /\ (j, k) <> (0, 2)).
  { intros len. induction len as [len IH] using lt_wf_ind. intros before j k after i Hlen E Hi Hn. subst len.
    destruct (Rule _ _ _ _ E) as (T & HT & Mo & (_ & _ & Hp) & Min & _).
    assert (Since : List.last (take (length before) times) 0%N = 0%N).
    { apply last_zero. intros x Hx. apply elem_of_list_lookup in Hx as [q Hq]. apply lookup_take_Some in Hq as [Hq Hlt]. destruct (lookup_lt_is_Some_2 before q Hlt) as [[j' k'] Hb].
      pose proof (take_drop_middle before q (j', k') Hb) as Sp. assert (Li : length (take q before) = q) by (rewrite take_length; lia).
      destruct (IH q Hlt (take q before) j' k' (drop (S q) before ++ (j, k) :: after) i Li) as (T0 & _); [|exact Hi| |congruence].
      - rewrite E. rewrite <- Sp at 1. rewrite <- app_assoc. reflexivity.
      - intros K. apply Hn. rewrite <- Sp. apply elem_of_app. left. exact K. }
    rewrite Since in Mo, Min.
    assert (T = 0%N) as ->.
    { destruct (N.eq_dec T 0) as [?|Ne]; [assumption|]. exfalso. apply (Min 0%N i 0); [left; reflexivity|lia|]. split; [exists 0, 1%N; exact (task_single i Hi)|]. split; [exact Hn|]. intros q Eq. discriminate Eq. }
    split; [exact HT|]. intros Eu. injection Eu as -> ->. destruct (Hp 1 eq_refl) as [_ Hf]. specialize (Hf _ _ (task_chain 1 ltac:(lia))).
    pose proof (chain_step 0 ltac:(lia)). pose proof (chain_step 1 ltac:(lia)). unfold window_end in Hf. rewrite gene_window in Hf; [discriminate| |lia]. apply genes_nth, G. }
  intros before j k after i E Hi Hn. exact (proj2 (Key _ _ _ _ _ i eq_refl E Hi Hn)).
Qed.
Lemma apart j k j' k' m d d' : task miss_shop j k m d -> task miss_shop j' k' m d' -> (j, k) <> (j', k') -> start j k <> start j' k'.
Proof. intros T T' Ne. destruct (proj2 Fe _ _ _ _ _ _ _ T T' Ne) as [H|H]; destruct (miss_task _ _ _ _ T) as [-> _], (miss_task _ _ _ _ T') as [-> _]; lia. Qed.
(** So the single operations take the first places on their machine *)
Lemma single_early i : (start 0 2 < 4)%N -> 1 <= i <= 4 -> forall t, (forall i', 1 <= i' <= 4 -> i' <> i -> start i' 0 <> t) -> (start i 0 <= t)%N.
Proof.
  intros Small Hi t Free. destruct PE as (Nd & All & Early). assert (Hin : (i, 0) ∈ order) by (apply All; do 2 eexists; exact (task_single i Hi)).
  apply elem_of_list_split in Hin as (before & after & E).
  assert (Hn : (i, 0) ∉ before). { rewrite E in Nd. apply NoDup_app in Nd as (_ & H & _). intros K. apply (H _ K). left. }
  assert (N2 : (0, 2) ∉ before).
  { intros K. apply elem_of_list_split in K as (b1 & b2 & ->). rewrite <- app_assoc in E. cbn [app] in E. refine (chain_waits Small _ _ _ _ i E Hi _ eq_refl).
    intros K. apply Hn. apply elem_of_app. left. exact K. }
  apply (proj2 (Early _ _ _ _ E)). split; [intros k' Ek; discriminate Ek|]. intros j' k' m d d' Hb T T'.
  destruct (miss_task _ _ _ _ T) as [-> [(-> & _)|(_ & _ & ->)]]; [lia|]. destruct (miss_task _ _ _ _ T') as [-> [(-> & Hk & Em)|(Hj & -> & _)]].
  - destruct k' as [|[|[|[|[|k']]]]]; try discriminate Em; [|lia]. exfalso. exact (N2 Hb).
  - assert (j' <> i) by (intros ->; exact (Hn Hb)). specialize (Free j' Hj ltac:(assumption)). lia.
Qed.
Lemma chain_late : (4 <= start 0 2)%N.
Proof.
  destruct (N.lt_ge_cases (start 0 2) 4) as [Small|H]; [|exact H].
  assert (A : forall i i', 1 <= i <= 4 -> 1 <= i' <= 4 -> i <> i' -> start i 0 <> start i' 0) by (intros i i' Hi Hi' Ne; apply (apart _ _ _ _ 0 1 1 (task_single i Hi) (task_single i' Hi')); congruence).
  assert (B : forall i, 1 <= i <= 4 -> start i 0 <> start 0 2) by (intros i Hi; apply (apart _ _ _ _ 0 1 1 (task_single i Hi) (task_chain 2 ltac:(lia))); intros E; injection E; lia).
  assert (C : forall i t, 1 <= i <= 4 -> (start i 0 <= t)%N \/ exists i', 1 <= i' <= 4 /\ i' <> i /\ start i' 0 = t).
  { intros i t Hi. destruct (N.le_gt_cases (start i 0) t) as [H|H]; [left; exact H|]. right. 
    destruct (decide (1 <> i /\ start 1 0 = t)) as [?|H1]; [exists 1; intuition lia|]. destruct (decide (2 <> i /\ start 2 0 = t)) as [?|H2]; [exists 2; intuition lia|].
    destruct (decide (3 <> i /\ start 3 0 = t)) as [?|H3]; [exists 3; intuition lia|]. destruct (decide (4 <> i /\ start 4 0 = t)) as [?|H4]; [exists 4; intuition lia|]. exfalso.
    assert ((start i 0 <= t)%N); [|lia]. apply (single_early i Small Hi). intros i' Hi' Ne Eq. destruct i' as [|[|[|[|[|i']]]]]; [lia| | | | |lia]; intuition. }
  assert (D : forall i, 1 <= i <= 4 -> (start i 0 <= 3)%N).
  { intros i Hi. destruct (N.le_gt_cases (start i 0) 3) as [H|H]; [exact H|]. exfalso.
    assert (K : forall t, (t <= 3)%N -> exists i', 1 <= i' <= 4 /\ i' <> i /\ start i' 0 = t) by (intros t Ht; destruct (C i t Hi); [lia|assumption]).
    destruct (K 0%N ltac:(lia)) as (a & Ha & Na & Ea), (K 1%N ltac:(lia)) as (b & Hb & Nb & Eb), (K 2%N ltac:(lia)) as (d & Hd & Nd & Ed), (K 3%N ltac:(lia)) as (e & He & Ne & Ee).
    assert (a <> b /\ a <> d /\ a <> e /\ b <> d /\ b <> e /\ d <> e) by (repeat split; intros ->; lia). lia. }
  pose proof (A 1 2 ltac:(lia) ltac:(lia) ltac:(lia)). pose proof (A 1 3 ltac:(lia) ltac:(lia) ltac:(lia)). pose proof (A 1 4 ltac:(lia) ltac:(lia) ltac:(lia)).
  pose proof (A 2 3 ltac:(lia) ltac:(lia) ltac:(lia)). pose proof (A 2 4 ltac:(lia) ltac:(lia) ltac:(lia)). pose proof (A 3 4 ltac:(lia) ltac:(lia) ltac:(lia)).
  pose proof (B 1 ltac:(lia)). pose proof (B 2 ltac:(lia)). pose proof (B 3 ltac:(lia)). pose proof (B 4 ltac:(lia)).
  pose proof (D 1 ltac:(lia)). pose proof (D 2 ltac:(lia)). pose proof (D 3 ltac:(lia)). pose proof (D 4 ltac:(lia)). lia.
Qed.
End Miss.

Lemma miss_valid : valid_shop 3 miss_shop.
Proof.
  split; [discriminate|]. split.
  - intros job Hj ->. repeat (apply elem_of_cons in Hj as [Hj|Hj]; [discriminate Hj|]). apply elem_of_nil in Hj. exact Hj.
  - split; [|cbv; discriminate]. intros j k m d T. destruct (miss_task _ _ _ _ T) as [_ [(_ & Hk & ->)|(_ & _ & ->)]]; [|lia]. destruct k as [|[|[|[|[|k]]]]]; cbn; lia.
Qed.
Lemma miss_standard : standard_shop miss_shop.
Proof.
  split; [intros j k m d T; destruct (miss_task _ _ _ _ T) as [-> _]; lia|]. intros j k m d m' d' T T'.
  destruct (miss_task _ _ _ _ T') as [_ [(-> & Hk & ->)|(_ & Hk & _)]]; [|discriminate Hk]. destruct (miss_task _ _ _ _ T) as [_ [(_ & _ & ->)|(Hj & _)]]; [|lia].
  destruct k as [|[|[|[|k]]]]; cbn; lia.
Qed.
Definition miss_best (j k : nat) : N := match j with 0 => N.of_nat k | 1 => 0%N | 2 => 1%N | 3 => 3%N | _ => 4%N end.
Lemma miss_best_feasible : feasible miss_shop miss_best.
Proof.
  split.
  - intros j k m d m' d' T T'. destruct (miss_task _ _ _ _ T') as [-> [(-> & Hk & ->)|(_ & Hk & _)]]; [|discriminate Hk]. destruct (miss_task _ _ _ _ T) as [-> _]. cbn. lia.
  - intros j k j' k' m d d' T T' Ne. assert (Hne : miss_best j k <> miss_best j' k').
    { destruct (miss_task _ _ _ _ T) as [-> [(-> & Hk & ->)|(Hj & -> & ->)]], (miss_task _ _ _ _ T') as [-> [(-> & Hk' & Em)|(Hj' & -> & Em)]].
      - cbn. intros E. apply Ne. f_equal. lia.
      - destruct k as [|[|[|[|[|k]]]]]; try discriminate Em; [|lia]. destruct j' as [|[|[|[|[|j']]]]]; cbn; lia.
      - destruct k' as [|[|[|[|[|k']]]]]; try discriminate Em; [|lia]. destruct j as [|[|[|[|[|j]]]]]; cbn; lia.
      - destruct j as [|[|[|[|[|j]]]]]; try lia; destruct j' as [|[|[|[|[|j']]]]]; try lia; cbn; try lia; congruence. }
    destruct (miss_task _ _ _ _ T) as [-> _], (miss_task _ _ _ _ T') as [-> _]. lia.
Qed.
Lemma miss_best_makespan : has_makespan miss_shop miss_best 5.
Proof.
  split.
  - intros j k m d T. destruct (miss_task _ _ _ _ T) as [-> [(-> & Hk & _)|(Hj & -> & _)]]; [cbn; lia|]. destruct j as [|[|[|[|[|j]]]]]; cbn; lia.
  - exists 0, 4, 2, 1%N. split; [eexists; split; reflexivity|reflexivity].
Qed.
Theorem never_optimal p x y m start t : load 3 miss_shop = Ok p -> reachable miss_shop p dc_example x -> evaluates dc_example x y m -> records miss_shop y start -> has_makespan miss_shop start t -> (7 <= t)%N.
Proof.
  intros Lp Rx Ex Rec Mk. assert (Hdc : delay_ok dc_example) by (repeat split; vm_compute; reflexivity).
  destruct (reachable_order 3 miss_shop miss_valid dc_example Hdc p x y m miss_standard Lp Rx Ex) as (start1 & order & R1 & PE & PP).
  destruct (reachable_evaluates 3 miss_shop miss_valid dc_example Hdc p x miss_standard Lp Rx) as (y2 & m2 & E2 & Ec & _ & _ & start2 & order2 & t2 & R2 & F2 & _).
  destruct (evaluates_det dc_example x y m y2 m2 Ex E2) as [-> ->].
  assert (F1 : feasible miss_shop start1).
  { split.
    - intros j k m d m' d' T T'. pose proof (proj1 F2 _ _ _ _ _ _ T T') as H. pose proof (R1 _ _ _ _ T). pose proof (R2 _ _ _ _ T). pose proof (R1 _ _ _ _ T'). pose proof (R2 _ _ _ _ T'). congruence.
    - intros j k j' k' m d d' T T' Ne. pose proof (proj2 F2 _ _ _ _ _ _ _ T T' Ne) as H. pose proof (R1 _ _ _ _ T). pose proof (R2 _ _ _ _ T). pose proof (R1 _ _ _ _ T'). pose proof (R2 _ _ _ _ T').
      replace (start1 j k) with (start2 j k) by congruence. replace (start1 j' k') with (start2 j' k') by congruence. exact H. }
  assert (Gx : genes_for miss_shop (j_chromosome x)).
  { clear -Rx Lp Hdc. induction Rx as [c Gc|z z' mz Rz IH Ez|z c Rz IH Gc]; [exact Gc| |exact Gc].
    destruct (reachable_evaluates 3 miss_shop miss_valid dc_example Hdc p z miss_standard Lp Rz) as (z1 & m1 & E1 & Ec & _). destruct (evaluates_det dc_example z z' mz z1 m1 Ez E1) as [-> ->]. rewrite Ec. exact IH. }
  pose proof (chain_late (j_chromosome x) Gx start1 order PE PP F1) as L.
  pose proof (chain_step start1 F1 2 ltac:(lia)). pose proof (chain_step start1 F1 3 ltac:(lia)).
  pose proof (R1 _ _ _ _ (task_chain 4 ltac:(lia))) as H1. pose proof (Rec _ _ _ _ (task_chain 4 ltac:(lia))) as H2. pose proof (proj1 Mk _ _ _ _ (task_chain 4 ltac:(lia))). assert (start 0 4 = start1 0 4) by congruence. lia.
Qed.
