(** * Proofs: local updates, goodness, heuristic and cost matrices *)
From Verif Require Export AcoPheromoneProofs.
Open Scope nat_scope.

(** ** Column-major element lists *)
Lemma columns_length (m : matrix) js : length (concat (map (fun j => map (fun i => entry m i j) (seq 0 (nrows m))) js)) = length js * nrows m.
Proof. induction js as [|j js IH]; [reflexivity|]. cbn [map concat length]. rewrite app_length, map_length, seq_length, IH. lia. Qed.
Lemma melems_length m : length (melems m) = nrows m * ncols m.
Proof. unfold melems. rewrite columns_length, seq_length. lia. Qed.
Lemma columns_nth (m : matrix) i d : i < nrows m -> forall js k j, js !! k = Some j ->
  nth (k * nrows m + i) (concat (map (fun j => map (fun i => entry m i j) (seq 0 (nrows m))) js)) d = entry m i j.
Proof.
  intros Hi. induction js as [|j0 js IH]; intros k j Hk; [discriminate|]. cbn [map concat].
  destruct k as [|k]; cbn in Hk.
  - injection Hk as ->. cbn [Nat.mul Nat.add]. rewrite app_nth1 by (rewrite map_length, seq_length; exact Hi).
    rewrite (nth_indep _ d (entry m 0 j)) by (rewrite map_length, seq_length; exact Hi).
    rewrite (map_nth (fun i => entry m i j)), seq_nth by exact Hi. reflexivity.
  - rewrite app_nth2 by (rewrite map_length, seq_length; lia). rewrite map_length, seq_length.
    replace (S k * nrows m + i - nrows m) with (k * nrows m + i) by lia. apply IH, Hk.
Qed.
Lemma melems_nth m i j d : in_matrix m i j -> nth (j * nrows m + i) (melems m) d = entry m i j.
Proof. intros [Hi Hj]. apply columns_nth; [exact Hi|]. rewrite lookup_seq_lt by exact Hj. reflexivity. Qed.
Lemma nth_zip_with {A B C} (f : A -> B -> C) la lb i a b c : i < length la -> i < length lb -> nth i (zip_with f la lb) c = f (nth i la a) (nth i lb b).
Proof.
  revert lb i. induction la as [|x la IH]; intros [|y lb] i Ha Hb; cbn [length] in *; try lia. destruct i as [|i]; [reflexivity|]. cbn. apply IH; lia.
Qed.

Lemma goodness_spec powf alpha beta h p g : nrows h = nrows p -> ncols h = nrows p -> ncols p = nrows p ->
  canonical_goodness powf alpha beta h p = Ok g ->
  nrows g = nrows p /\ ncols g = nrows p /\ forall i j, in_matrix p i j -> entry g i j = fmul (powf (entry p i j) alpha) (powf (entry h i j) beta).
Proof.
  intros H1 H2 H3 H. unfold canonical_goodness, mfrom in H. destruct (decide _) as [D|D]; [|discriminate]. injection H as <-. split; [reflexivity|]. split; [reflexivity|].
  intros i j Hij. cbn [entry]. assert (L : j * nrows p + i < nrows p * ncols p) by (destruct Hij; nia).
  rewrite (nth_zip_with _ _ _ _ f0 f0); [|rewrite melems_length; lia|rewrite melems_length; nia].
  rewrite melems_nth by exact Hij. rewrite <- H1. rewrite melems_nth; [reflexivity|]. destruct Hij; split; lia.
Qed.
Lemma goodness_ok powf alpha beta h p : nrows h = nrows p -> ncols h = nrows p -> ncols p = nrows p -> exists g, canonical_goodness powf alpha beta h p = Ok g.
Proof.
  intros H1 H2 H3. unfold canonical_goodness, mfrom. rewrite decide_True; [eauto|]. rewrite zip_with_length, !melems_length, H1, H2, H3. lia.
Qed.
Lemma goodness_too_small powf alpha beta h p : nrows h * ncols h < nrows p * nrows p -> canonical_goodness powf alpha beta h p = Panic.
Proof.
  intros H. unfold canonical_goodness, mfrom. rewrite decide_False; [reflexivity|]. rewrite zip_with_length, !melems_length. lia.
Qed.

Lemma heuristic_spec w : exists h, create_heuristic w = Ok h /\ nrows h = nrows w /\ ncols h = ncols w /\
  forall i j, in_matrix w i j -> entry h i j = if feq (entry w i j) f0 then f0 else fdiv f1 (entry w i j).
Proof.
  unfold create_heuristic, mfrom. rewrite decide_True by (rewrite map_length, melems_length; reflexivity). eexists. split; [reflexivity|]. split; [reflexivity|]. split; [reflexivity|].
  intros i j Hij. cbn [entry]. assert (L : j * nrows w + i < length (melems w)) by (rewrite melems_length; destruct Hij; nia).
  rewrite (nth_indep _ f0 (heuristic_entry f0)) by (rewrite map_length; exact L). change (heuristic_entry <$> melems w) with (map heuristic_entry (melems w)).
  rewrite map_nth, melems_nth by exact Hij. reflexivity.
Qed.

(** ** Cost matrix *)
Definition cost_step (cities : list (f64 * f64)) (m : matrix) (e : nat * nat) : outcome matrix :=
  a ← index cities e.1; b ← index cities e.2; m ← mset m e.1 e.2 (city_distance a b); mset m e.2 e.1 (city_distance a b).
Lemma cost_step_eq cities m i j : cost_step cities m (i, j) =
  (a ← index cities i; b ← index cities j; m ← mset m i j (city_distance a b); mset m j i (city_distance a b)).
Proof. reflexivity. Qed.
Definition cost_pairs n : list (nat * nat) := concat (map (fun i => map (fun j => (i, j)) (seq i (n - i))) (seq 0 n)).
Lemma tsp_cost_eq cities : tsp_cost cities = ofold (cost_step cities) (mrepeat (length cities) (length cities) f0) (cost_pairs (length cities)).
Proof.
  unfold tsp_cost, cost_pairs. generalize (concat (map (fun i => map (fun j => (i, j)) (seq i (length cities - i))) (seq 0 (length cities)))) as l.
  generalize (mrepeat (length cities) (length cities) f0) as m. intros m l. revert m. induction l as [|[i j] l IH]; intros m; [reflexivity|].
  transitivity (m1 ← cost_step cities m (i, j); ofold (cost_step cities) m1 l); [|reflexivity]. cbn [ofold].
  match goal with |- mbind _ ?x = _ => change x with (cost_step cities m (i, j)) end.
  destruct (cost_step cities m (i, j)) as [m1| |]; [apply IH|reflexivity..].
Qed.
Lemma cost_pairs_in n i j : (i, j) ∈ cost_pairs n <-> i <= j < n.
Proof.
  unfold cost_pairs. rewrite elem_of_list_In, in_concat. split.
  - intros (l & Hl & H). apply in_map_iff in Hl as (a & <- & Ha). apply in_map_iff in H as (b & E & Hb). injection E as <- <-.
    apply in_seq in Ha, Hb. lia.
  - intros H. exists (map (fun j => (i, j)) (seq i (n - i))). split; apply in_map_iff; [exists i|exists j]; (split; [reflexivity|]); apply in_seq; lia.
Qed.
Lemma cost_fold cities (es : list (nat * nat)) : Forall (fun e => e.1 <= e.2 < length cities) es -> forall m, nrows m = length cities -> ncols m = length cities ->
  exists m', ofold (cost_step cities) m es = Ok m' /\ nrows m' = length cities /\ ncols m' = length cities /\
    (forall i j a b, i <= j -> cities !! i = Some a -> cities !! j = Some b -> (i, j) ∈ es \/ (entry m i j = city_distance a b /\ entry m j i = city_distance a b) ->
       entry m' i j = city_distance a b /\ entry m' j i = city_distance a b).
Proof.
  induction 1 as [|e es He _ IH]; intros m Hr Hc.
  - exists m. split; [reflexivity|]. split_and!; auto. intros i j a b _ _ _ [H|H]; [inversion H|exact H].
  - destruct e as [i j]. cbn [fst snd] in He. destruct (lookup_lt_is_Some_2 cities i) as [a Ha]; [lia|]. destruct (lookup_lt_is_Some_2 cities j) as [b Hb]; [lia|].
    cbn [ofold]. rewrite cost_step_eq. rewrite (proj2 (index_Ok _ _ _) Ha). cbn [mbind outcome_bind]. rewrite (proj2 (index_Ok _ _ _) Hb). cbn [mbind outcome_bind].
    assert (I1 : in_matrix m i j) by (split; lia). rewrite (proj2 (mset_Ok m i j (city_distance a b) _) (conj I1 eq_refl)). cbn [mbind outcome_bind].
    assert (I2 : in_matrix (upd m i j (city_distance a b)) j i) by (split; cbn; lia). rewrite (proj2 (mset_Ok _ j i (city_distance a b) _) (conj I2 eq_refl)). cbn [mbind outcome_bind].
    set (m1 := upd (upd m i j (city_distance a b)) j i (city_distance a b)).
    destruct (IH m1 Hr Hc) as (m' & E & R & C & P). exists m'. split; [exact E|]. split_and!; auto. intros i' j' a' b' Hle Ha' Hb' [Hin|Hin].
    + apply elem_of_cons in Hin as [X|Hin]; [|apply P; auto]. injection X as -> ->. rewrite Ha in Ha'. rewrite Hb in Hb'. apply (inj Some) in Ha' as <-. apply (inj Some) in Hb' as <-.
      apply P; auto. right. unfold m1, upd. cbn [entry]. split; repeat (destruct (decide _)); auto; exfalso; tauto.
    + destruct (decide (i' = i /\ j' = j)) as [[-> ->]|N].
      { rewrite Ha in Ha'. rewrite Hb in Hb'. apply (inj Some) in Ha' as <-. apply (inj Some) in Hb' as <-. apply P; auto. right. unfold m1, upd. cbn [entry]. split; repeat (destruct (decide _)); auto; exfalso; tauto. }
      apply P; auto. right. destruct Hin as [X Y]. unfold m1, upd. cbn [entry]. split; repeat (destruct (decide _)); auto; exfalso; lia.
Qed.
Lemma cost_spec cities : exists m, tsp_cost cities = Ok m /\ nrows m = length cities /\ ncols m = length cities /\ symmetric m /\
  forall i j a b, i <= j -> cities !! i = Some a -> cities !! j = Some b -> entry m i j = city_distance a b.
Proof.
  rewrite tsp_cost_eq. destruct (cost_fold cities (cost_pairs (length cities))) with (m := mrepeat (length cities) (length cities) f0) as (m & E & R & C & P); [|reflexivity..|].
  { apply Forall_forall. intros [i j] H. apply cost_pairs_in in H. exact H. }
  exists m. split; [exact E|]. split_and!; auto.
  - split; [congruence|]. intros i j [Hi Hj]. rewrite R in Hi. rewrite C in Hj. destruct (lookup_lt_is_Some_2 cities i Hi) as [a Ha]. destruct (lookup_lt_is_Some_2 cities j Hj) as [b Hb].
    destruct (le_lt_dec i j) as [L|L].
    + destruct (P i j a b L Ha Hb) as [X Y]; [left; apply cost_pairs_in; lia|congruence].
    + destruct (P j i b a) as [X Y]; [lia|auto|auto|left; apply cost_pairs_in; lia|congruence].
  - intros i j a b L Ha Hb. assert (j < length cities) by (apply lookup_lt_is_Some_1; eauto). destruct (P i j a b L Ha Hb) as [X _]; [left; apply cost_pairs_in; lia|exact X].
Qed.

(** ** Local updates *)
Lemma last_edge_Ok p s r : last_edge p = Ok (s, r) <-> exists q, p = q ++ [s; r].
Proof.
  unfold last_edge. split.
  - intros H. apply obind_Ok in H as ([] & HL & H). unfold rassert in HL. destruct (bool_decide_reflect (2 <= length p)) as [L|L]; [|discriminate].
    apply obind_Ok in H as (x & Hx & H). apply obind_Ok in H as (y & Hy & H). injection H as -> ->.
    apply index_Ok in Hx, Hy. exists (take (length p - 2) p). rewrite <- (take_drop (length p - 2) p) at 1. f_equal.
    rewrite (drop_S _ _ _ Hx). f_equal. replace (S (length p - 2)) with (length p - 1) by lia. rewrite (drop_S _ _ _ Hy). f_equal. apply drop_ge. lia.
  - intros (q & ->). rewrite app_length. cbn [length]. rewrite bool_decide_eq_true_2 by lia. cbn [rassert mbind outcome_bind].
    rewrite (proj2 (index_Ok (q ++ [s; r]) (length q + 2 - 2) s)) by (rewrite lookup_app_r by lia; replace (length q + 2 - 2 - length q) with 0 by lia; reflexivity).
    cbn [mbind outcome_bind].
    rewrite (proj2 (index_Ok (q ++ [s; r]) (length q + 2 - 1) r)) by (rewrite lookup_app_r by lia; replace (length q + 2 - 1 - length q) with 1 by lia; reflexivity). reflexivity.
Qed.
Lemma snoc2_inj (q q' : list nat) a b c d : q ++ [a; b] = q' ++ [c; d] -> a = c /\ b = d.
Proof.
  intros H. change [a; b] with ([a] ++ [b]) in H. change [c; d] with ([c] ++ [d]) in H. rewrite !app_assoc in H.
  apply app_inj_2 in H as [H1 H2]; [|reflexivity]. injection H2 as ->. apply app_inj_2 in H1 as [_ H1]; [|reflexivity]. injection H1 as ->. auto.
Qed.
Section Local.
Context (f : f64 -> f64) (step : matrix -> nat -> nat -> outcome matrix).
Hypothesis step_Ok : forall m s r m', step m s r = Ok m' -> in_matrix m s r /\ nrows m' = nrows m /\ ncols m' = ncols m /\
  forall a b, entry m' a b = if decide (a = s /\ b = r) then f (entry m a b) else entry m a b.
Hypothesis step_ok : forall m s r, in_matrix m s r -> exists m', step m s r = Ok m'.
Lemma local_fold (paths : list (list nat)) : forall m m', ofold (fun m p => '(s, r) ← last_edge p; step m s r) m paths = Ok m' ->
  nrows m' = nrows m /\ ncols m' = ncols m /\ forall a b, after_steps f a b paths (entry m a b) (entry m' a b).
Proof.
  induction paths as [|p ps IH]; intros m m' H; cbn [ofold] in H; [injection H as <-; split_and!; auto; constructor|].
  apply obind_Ok in H as (m1 & H1 & H). apply obind_Ok in H1 as ([s r] & He & H1). destruct (IH _ _ H) as (R & C & E).
  destruct (step_Ok _ _ _ _ H1) as (_ & R1 & C1 & E1). split_and!; [congruence..|]. intros a b. specialize (E a b). rewrite E1 in E.
  apply last_edge_Ok in He as (q & ->). destruct (decide (a = s /\ b = r)) as [[-> ->]|N]; [apply step_on, E|].
  apply step_off; [|exact E]. intros q' X. apply snoc2_inj in X as [-> ->]. tauto.
Qed.
Lemma local_fold_ok (paths : list (list nat)) : forall m, Forall (fun p => exists q s r, p = q ++ [s; r] /\ in_matrix m s r) paths ->
  exists m', ofold (fun m p => '(s, r) ← last_edge p; step m s r) m paths = Ok m'.
Proof.
  induction paths as [|p ps IH]; intros m H; cbn [ofold]; [eauto|]. inversion_clear H as [|? ? (q & s & r & -> & Hin) Hs].
  rewrite (proj2 (last_edge_Ok (q ++ [s; r]) s r)) by eauto. cbn [mbind outcome_bind]. destruct (step_ok m s r Hin) as [m1 E1]. rewrite E1. cbn [mbind outcome_bind].
  apply IH. eapply Forall_impl; [exact Hs|]. intros p' (q' & s' & r' & -> & H'). exists q', s', r'. split; [reflexivity|]. destruct (step_Ok _ _ _ _ E1) as (_ & R & C & _). unfold in_matrix. rewrite R, C. exact H'.
Qed.
End Local.
Lemma decay_spec rate m paths m' : decay rate m paths = Ok m' -> nrows m' = nrows m /\ ncols m' = ncols m /\
  forall a b, after_steps (fun x => fmul x rate) a b paths (entry m a b) (entry m' a b).
Proof.
  apply (local_fold (fun x => fmul x rate) (fun m s r => mupd m s r (fun x => fmul x rate))).
  intros q s r q' H. apply mupd_Ok in H as [Hin ->]. split_and!; auto. intros a b. unfold upd. cbn [entry]. destruct (decide _) as [[-> ->]|]; reflexivity.
Qed.
Lemma decay_to_spec rate stable m paths m' : decay_to rate stable m paths = Ok m' -> nrows m' = nrows m /\ ncols m' = ncols m /\
  forall a b, after_steps (fun x => fadd (fmul x rate) (fmul stable (fsub f1 rate))) a b paths (entry m a b) (entry m' a b).
Proof.
  apply (local_fold (fun x => fadd (fmul x rate) (fmul stable (fsub f1 rate))) (fun m s r => m ← mupd m s r (fun x => fmul x rate);
                    mupd m s r (fun x => fadd x (fmul stable (fsub f1 rate))))).
  intros q s r q' H. apply obind_Ok in H as (q1 & H1 & H). apply mupd_Ok in H1 as [Hin ->]. apply mupd_Ok in H as [_ ->]. split_and!; auto. intros a b. unfold upd. cbn [entry].
  rewrite (decide_True (P := s = s /\ r = r)) by auto. destruct (decide _) as [[-> ->]|]; reflexivity.
Qed.
Lemma decay_ok rate m paths : Forall (fun p => exists q s r, p = q ++ [s; r] /\ in_matrix m s r) paths -> exists m', decay rate m paths = Ok m'.
Proof.
  apply (local_fold_ok (fun x => fmul x rate) (fun m s r => mupd m s r (fun x => fmul x rate))).
  - intros q s r q' H. apply mupd_Ok in H as [Hin ->]. split_and!; auto. intros a b. unfold upd. cbn [entry]. destruct (decide _) as [[-> ->]|]; reflexivity.
  - intros q s r H. eexists. apply mupd_Ok. eauto.
Qed.
