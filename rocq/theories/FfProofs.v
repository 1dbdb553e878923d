(** * Proofs about the firefly algorithm *)
From Verif Require Export FfSpec FfModel.
From Verif Require Import PsoBestProofs.
Open Scope nat_scope.

Lemma fcmp_cases x y : match fcmp x y with
  | None => is_nan x = true \/ is_nan y = true
  | Some Lt => flt x y = true
  | Some Eq => feq x y = true
  | Some Gt => flt y x = true end.
Proof.
  destruct (fcmp x y) as [[]|] eqn:E.
  - unfold feq, SFeqb. unfold fcmp in E. rewrite E. reflexivity.
  - unfold flt, SFltb. unfold fcmp in E. rewrite E. reflexivity.
  - unfold fcmp in E. unfold flt, SFltb. destruct x as [[]|[]| |[] mx ex], y as [[]|[]| |[] my ey]; cbn in *; try discriminate; try reflexivity.
    + destruct (Z.compare ey ex) eqn:Z1; rewrite Z.compare_antisym in Z1; destruct (Z.compare ex ey) eqn:Z2; cbn in Z1; try discriminate; try reflexivity.
      pose proof (Pos.compare_cont_antisym mx my Eq) as P. change (CompOpp Eq) with Eq in P. rewrite <- P. destruct (Pos.compare_cont Eq mx my); cbn in *; try discriminate; reflexivity.
    + destruct (Z.compare ey ex) eqn:Z1; rewrite Z.compare_antisym in Z1; destruct (Z.compare ex ey) eqn:Z2; cbn in Z1; try discriminate; try reflexivity.
      pose proof (Pos.compare_cont_antisym mx my Eq) as P. change (CompOpp Eq) with Eq in P. rewrite <- P. destruct (Pos.compare_cont Eq mx my); cbn in *; try discriminate; reflexivity.
  - unfold fcmp in E. destruct x as [[]|[]| |[] ? ?], y as [[]|[]| |[] ? ?]; cbn in *; auto; try discriminate; repeat case_match; discriminate.
Qed.
Lemma flt_fcmp x y : flt x y = true -> fcmp x y = Some Lt.
Proof. unfold flt, SFltb, fcmp. destruct (SFcompare x y) as [[]|]; try discriminate. reflexivity. Qed.

Lemma bound_step_settled lo hi x : fle lo hi = true -> settled lo hi x (bound_step lo hi x).
Proof.
  intros Hle. assert (Nl : is_nan lo = false) by (destruct lo; try reflexivity; discriminate).
  assert (Nh : is_nan hi = false) by (destruct hi; try reflexivity; destruct lo as [|[]| |]; discriminate).
  unfold bound_step, settled. pose proof (fcmp_cases x lo) as A. pose proof (fcmp_cases x hi) as B.
  destruct (is_nan x) eqn:Nx.
  - left. split; [reflexivity|]. destruct x; try discriminate. reflexivity.
  - right. destruct (fcmp x lo) as [[]|] eqn:E1; [| | |destruct A; congruence].
    + right. right. rewrite andb_false_r. assert (L : fle x lo = true). { unfold fle, SFleb. unfold fcmp in E1. rewrite E1. reflexivity. }
      assert (X : flt hi x = false). { destruct (flt hi x) eqn:X; [|reflexivity]. assert (Y : flt hi lo = true) by (eapply flt_le_trans; eauto). rewrite flt_fle_neg in Y by auto. rewrite Hle in Y. discriminate. }
      rewrite X. auto.
    + right. right. rewrite andb_false_r. assert (X : flt hi x = false). { destruct (flt hi x) eqn:X; [|reflexivity]. assert (Y : flt hi lo = true) by (eapply flt_trans; eauto). rewrite flt_fle_neg in Y by auto. rewrite Hle in Y. discriminate. }
      rewrite X. split; [left; apply flt_le, A|reflexivity].
    + destruct (fcmp x hi) as [[]|] eqn:E2; [| | |destruct B; congruence]; cbn [andb].
      * right. right. assert (X : flt hi x = false). { destruct (flt hi x) eqn:X; [|reflexivity]. rewrite flt_fle_neg in X by auto. unfold fle, SFleb in X. unfold fcmp in E2. rewrite E2 in X. discriminate. }
        rewrite X. auto.
      * left. auto.
      * right. left. rewrite B. auto.
Qed.
Lemma settled_in_bounds lo hi x z : fle lo hi = true -> settled lo hi x z -> in_bounds lo hi z.
Proof.
  intros Hle. assert (Nl : is_nan lo = false) by (destruct lo; try reflexivity; discriminate).
  assert (Nh : is_nan hi = false) by (destruct hi; try reflexivity; destruct lo as [|[]| |]; discriminate).
  intros [[N ->]|[(A & B & ->)|[[A ->]|[A ->]]]]; [left; exact N|right..].
  - split; apply flt_le; assumption.
  - split; [exact Hle|apply fle_refl, Nh].
  - split; [apply fle_refl, Nl|exact Hle].
Qed.
Lemma gen_range_half_Ok lo hi r v r' : gen_range_half lo hi r = Ok (v, r') -> fle lo v = true /\ flt v hi = true.
Proof.
  unfold gen_range_half. destruct (_ && _ && _) eqn:E; [|discriminate]. intros [= <- _]. apply andb_true_iff in E as [E _]. apply andb_true_iff in E as [E _].
  destruct (fle lo _ && flt _ hi) eqn:E2; [apply andb_true_iff in E2; exact E2|]. split; [apply fle_refl; eapply flt_nan_l; eauto|exact E].
Qed.

Section Ff.
Context (f : list f64 -> f64) (dist : list f64 -> list f64 -> outcome f64) (powf : f64 -> f64 -> f64) (sq : f64 -> f64) (c : ff_cfg).
Context (Hle : fle (ff_lower c) (ff_upper c) = true).

Lemma fly_spec k alfa g : forall xs ys r zs r', fly c k alfa g xs ys r = Ok (zs, r') -> flown c k alfa g xs ys zs.
Proof.
  induction xs as [|x xs IH]; intros ys r zs r' H; cbn [fly] in H; [injection H as <- <-; constructor|]. destruct ys as [|y ys]; [discriminate|].
  apply obind_Ok in H as ([u r1] & Hu & H). destruct (distribution c r1) as [d r2] eqn:Ed. apply obind_Ok in H as ([zs1 r3] & Hz & H). injection H as <- <-.
  apply gen_range_half_Ok in Hu as [U1 U2]. econstructor; [exact U1|exact U2|exists r1; rewrite Ed; reflexivity|apply bound_step_settled, Hle|eapply IH; eauto].
Qed.
Lemma brownian_spec alfa : forall xs r zs r', brownian powf c alfa xs r = Ok (zs, r') -> walked c powf alfa xs zs.
Proof.
  unfold walked. induction xs as [|x xs IH]; intros r zs r' H; cbn [brownian] in H; [injection H as <- <-; constructor|].
  apply obind_Ok in H as ([u r1] & Hu & H). apply obind_Ok in H as ([zs1 r3] & Hz & H). injection H as <- <-.
  apply gen_range_half_Ok in Hu as [U1 U2]. constructor; [|eapply IH; eauto]. exists u. split; [exact U1|]. split; [exact U2|]. apply bound_step_settled, Hle.
Qed.

Lemma bright_lookup pop j : brightness_of f pop !! j = (fun x => fdiv f1 (f x)) <$> (pop !! j).
Proof. unfold brightness_of. apply list_lookup_fmap. Qed.
Definition inner (i : nat) (bright : list f64) (pop : list (list f64)) (alfa g : f64) (x : list f64) (st : list f64 * bool * rng) (j : nat) : outcome (list f64 * bool * rng) :=
  let '(res, moved, r) := st in
  bi ← index bright i; bj ← index bright j;
  if flt bi bj then
    y ← index pop j; d ← dist x y;
    '(res, r) ← fly c (fmul (beta0 c) (powf f_E (fmul (fmul f_m1 (gamma c)) (sq d)))) alfa g x y r;
    Ok (res, true, r)
  else Ok (res, moved, r).
Lemma move_firefly_eq i bright pop alfa g r : move_firefly dist powf sq c i bright pop alfa g r =
  (x ← index pop i; '(res, moved, r) ← ofold (inner i bright pop alfa g x) (x, false, r) (seq 0 (ff_population_size c));
   if moved : bool then Ok (res, r) else brownian powf c alfa res r).
Proof. reflexivity. Qed.
Lemma inner_spec i pop alfa g x r : pop !! i = Some x -> forall n res mv r', ofold (inner i (brightness_of f pop) pop alfa g x) (x, false, r) (seq 0 n) = Ok (res, mv, r') ->
  n <= length pop /\
  (if mv : bool then exists j y d, last_brighter f n pop x j y /\ dist x y = Ok d /\ flown c (fmul (beta0 c) (powf f_E (fmul (fmul f_m1 (gamma c)) (sq d)))) alfa g x y res
   else res = x /\ forall j y, j < n -> pop !! j = Some y -> flt (fdiv f1 (f x)) (fdiv f1 (f y)) = false).
Proof.
  intros Hx. induction n as [|n IH]; intros res mv r' H.
  - cbn in H. injection H as <- <- <-. split; [lia|]. split; [reflexivity|]. intros; lia.
  - rewrite seq_S, ofold_app in H. apply obind_Ok in H as ([[res1 mv1] r1] & H1 & H). cbn [ofold] in H. apply obind_Ok in H as ([[res2 mv2] r2] & H2 & H). injection H as <- <- <-.
    destruct (IH _ _ _ H1) as [Hn Hc]. clear IH H1. cbn [Nat.add] in H2. unfold inner in H2. apply obind_Ok in H2 as (bi & Hbi & H2). apply obind_Ok in H2 as (bj & Hbj & H2).
    apply index_Ok in Hbi, Hbj. rewrite bright_lookup in Hbi, Hbj. rewrite Hx in Hbi. apply (inj Some) in Hbi as <-.
    destruct (pop !! n) as [y|] eqn:Hy; [|discriminate]. apply (inj Some) in Hbj as <-.
    split; [apply lookup_lt_Some in Hy; lia|].
    destruct (flt (fdiv f1 (f x)) (fdiv f1 (f y))) eqn:E.
    + apply obind_Ok in H2 as (y' & Hy' & H2). apply index_Ok in Hy'. rewrite Hy in Hy'. apply (inj Some) in Hy' as <-. apply obind_Ok in H2 as (d & Hd & H2).
      apply obind_Ok in H2 as ([res3 r3] & Hf & H2). injection H2 as <- <- <-. exists n, y, d. split; [|split; [exact Hd|eapply fly_spec; eauto]].
      split; [lia|]. split; [exact Hy|]. split; [exact E|]. intros; lia.
    + injection H2 as <- <- <-. destruct mv1.
      * destruct Hc as (j & y1 & d & (L1 & L2 & L3 & L4) & Hd & Hf). exists j, y1, d. split; [|auto]. split; [lia|]. split; [exact L2|]. split; [exact L3|].
        intros k z Hk Hz. destruct (Nat.eq_dec k n) as [->|]; [rewrite Hy in Hz; apply (inj Some) in Hz as <-; exact E|]. apply (L4 k z); [lia|exact Hz].
      * destruct Hc as [-> Hc]. split; [reflexivity|]. intros j z Hj Hz. destruct (Nat.eq_dec j n) as [->|]; [rewrite Hy in Hz; apply (inj Some) in Hz as <-; exact E|]. apply (Hc j z); [lia|exact Hz].
Qed.
Lemma move_firefly_spec i pop alfa g r z r' x : pop !! i = Some x -> move_firefly dist powf sq c i (brightness_of f pop) pop alfa g r = Ok (z, r') ->
  moved f dist powf sq c alfa g pop x z.
Proof.
  intros Hx H. rewrite move_firefly_eq in H. apply obind_Ok in H as (x' & Hx' & H). apply index_Ok in Hx'. rewrite Hx in Hx'. apply (inj Some) in Hx' as <-.
  apply obind_Ok in H as ([[res mv] r1] & H1 & H). destruct (inner_spec i pop alfa g x r Hx _ _ _ _ H1) as [_ Hc]. destruct mv.
  - injection H as <- <-. left. exact Hc.
  - destruct Hc as [-> Hc]. right. split; [exact Hc|]. eapply brownian_spec; eauto.
Qed.
Lemma move_all_spec pop alfa g : forall is r zs r', Forall (fun i => i < length pop) is -> move_all dist powf sq c is (brightness_of f pop) pop alfa g r = Ok (zs, r') ->
  Forall2 (fun i z => exists x, pop !! i = Some x /\ moved f dist powf sq c alfa g pop x z) is zs.
Proof.
  induction is as [|i is IH]; intros r zs r' HF H; cbn [move_all] in H; [injection H as <- <-; constructor|]. apply Forall_cons in HF as [Hi HF].
  apply obind_Ok in H as ([z r1] & H1 & H). apply obind_Ok in H as ([zs1 r2] & H2 & H). injection H as <- <-. constructor; [|eapply IH; eauto].
  destruct (lookup_lt_is_Some_2 pop i Hi) as [x Hx]. exists x. split; [exact Hx|]. eapply move_firefly_spec; eauto.
Qed.
Lemma move_population pop alfa g r zs r' : move_all dist powf sq c (seq 0 (length pop)) (brightness_of f pop) pop alfa g r = Ok (zs, r') ->
  Forall2 (moved f dist powf sq c alfa g pop) pop zs.
Proof.
  intros H. apply move_all_spec in H; [|apply Forall_forall; intros i Hi%elem_of_seq; lia].
  apply Forall2_same_length_lookup_2.
  - apply Forall2_length in H. rewrite seq_length in H. exact H.
  - intros i x z Hx Hz. destruct (Forall2_lookup_r _ _ _ _ _ H Hz) as (j & Hj & x' & Hx' & HM).
    apply lookup_seq in Hj as [-> _]. cbn in Hx'. rewrite Hx in Hx'. apply (inj Some) in Hx' as <-. exact HM.
Qed.

(** ** The loop *)
Fixpoint ff_history (i : nat) (pop : list (list f64)) (best : f64) (l : list (list (list f64) * f64 * list f64)) : Prop :=
  match l with
  | [] => True
  | (p, b, x) :: l => Forall2 (moved f dist powf sq c (alfa_at c i) (f_of_nat i) pop) pop p /\
      p !! brightest 0 0 f0 (take (ff_population_size c) (brightness_of f p)) = Some x /\
      b = (if flt (f x) best then f x else best) /\ ff_history (S i) p b l
  end.
Lemma loop_history n : forall i pop best r evs pop', ff_loop f dist powf sq c n i pop (brightness_of f pop) (alfa_at c i) best r = Ok (evs, pop') ->
  exists l, length l = n /\ evs = concat (imap (fun j '(_, b, x) => [FfIterStart (j + i); FfCurrentBest b x; FfIterEnd (j + i)]) l) /\ pop' = population_after pop l /\
    ff_history i pop best l.
Proof.
  induction n as [|n IH]; intros i pop best r evs pop' H; cbn [ff_loop] in H.
  - injection H as <- <-. exists []. repeat split.
  - apply obind_Ok in H as ([p r1] & Hp & H). apply obind_Ok in H as (x & Hx & H). apply index_Ok in Hx. apply obind_Ok in H as ([evs1 pop1] & H1 & H). injection H as <- <-.
    change (fmul (alfa_at c i) (delta c)) with (alfa_at c (S i)) in H1. apply IH in H1 as (l & HL & -> & -> & HH).
    exists ((p, if flt (f x) best then f x else best, x) :: l). split; [cbn; lia|]. split; [|split].
    + rewrite imap_cons. cbn [concat app]. f_equal. f_equal. f_equal. f_equal. apply imap_ext. intros j [[? ?] ?] _. cbn. replace (j + S i) with (S (j + i)) by lia. reflexivity.
    + unfold population_after. cbn [map fst]. rewrite last_cons_default. reflexivity.
    + cbn [ff_history]. split; [apply move_population in Hp; exact Hp|]. auto.
Qed.
Lemma run_history pop r evs pop' : ff_run f dist powf sq c pop r = Ok (evs, pop') ->
  exists l, length l = max_generations c /\ evs = ff_protocol l /\ pop' = population_after pop l /\ ff_history 0 pop fmax l.
Proof.
  intros H. unfold ff_run in H. apply obind_Ok in H as ([evs1 pop1] & H1 & H). injection H as <- <-. apply loop_history in H1 as (l & HL & -> & -> & HH).
  exists l. split; [exact HL|]. split; [|auto]. unfold ff_protocol. f_equal. f_equal. f_equal. apply imap_ext. intros j [[? ?] ?] _. cbn. rewrite Nat.add_0_r. reflexivity.
Qed.

(** Shape and bounds *)
Lemma flown_length k alfa g xs ys zs : flown c k alfa g xs ys zs -> length zs = length xs.
Proof. induction 1; cbn; congruence. Qed.
Lemma moved_length alfa g pop x z : moved f dist powf sq c alfa g pop x z -> length z = length x.
Proof. intros [(j & y & d & _ & _ & H)|[_ H]]; [eapply flown_length; eauto|symmetry; eapply Forall2_length; eauto]. Qed.
Lemma moved_bounds alfa g pop x z : moved f dist powf sq c alfa g pop x z -> Forall (in_bounds (ff_lower c) (ff_upper c)) z.
Proof.
  intros [(j & y & d & _ & _ & H)|[_ H]].
  - induction H; constructor; auto. eapply settled_in_bounds; eauto.
  - unfold walked in H. induction H as [|a b xs zs (u & _ & _ & H) _ IH]; constructor; auto. eapply settled_in_bounds; eauto.
Qed.
Lemma history_shape l : forall i pop best, ff_history i pop best l ->
  Forall (fun e => same_shape pop e.1.1 /\ Forall (Forall (in_bounds (ff_lower c) (ff_upper c))) e.1.1 /\ e.2 ∈ e.1.1) l.
Proof.
  induction l as [|[[p b] x] l IH]; intros i pop best H; [constructor|]. destruct H as (HM & Hx & _ & H). apply IH in H.
  assert (SH : same_shape pop p). { unfold same_shape. clear - HM Hle. induction HM as [|a b' xs zs Hm _ IH]; [reflexivity|]. cbn [map]. f_equal; [symmetry; eapply moved_length; eauto|exact IH]. }
  constructor.
  - cbn [fst snd]. split; [exact SH|]. split; [|eapply elem_of_list_lookup_2; eauto]. clear - HM Hle. induction HM as [|a b' xs zs Hm _ IH]; constructor; [eapply moved_bounds; eauto|exact IH].
  - eapply Forall_impl; [exact H|]. intros [[q b'] y] (A & B & C). cbn [fst snd] in *. split; [unfold same_shape in *; congruence|auto].
Qed.
End Ff.
