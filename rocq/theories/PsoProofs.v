(** * Proofs about the particle swarm *)
From Verif Require Export PsoSpec PsoModel.
Open Scope nat_scope.

Lemma assign_ok {A} (l : list A) i x : i < length l -> assign l i x = Ok (<[i:=x]> l).
Proof. intros H. unfold assign. rewrite decide_True by exact H. reflexivity. Qed.

(** ** Parallel position update *)
Section Positions.
Context {A : Type} (g : A -> A).
Definition pos_step (ps : list A) (i : nat) : outcome (list A) := p ← index ps i; assign ps i (g p).
Lemma pos_fold order : NoDup order -> forall ps, Forall (fun i => i < length ps) order ->
  exists ps', ofold pos_step ps order = Ok ps' /\ length ps' = length ps /\
    forall i, ps' !! i = if decide (i ∈ order) then g <$> ps !! i else ps !! i.
Proof.
  induction 1 as [|j order Hj ND IH]; intros ps HF.
  - exists ps. split; [reflexivity|]. split; [reflexivity|]. intros i. rewrite decide_False by (apply not_elem_of_nil). reflexivity.
  - apply Forall_cons in HF as [Hlt HF]. destruct (lookup_lt_is_Some_2 ps j Hlt) as [p Hp]. cbn [ofold].
    assert (E : pos_step ps j = Ok (<[j := g p]> ps)) by (unfold pos_step; rewrite (proj2 (index_Ok _ _ _) Hp); cbn [mbind outcome_bind]; apply assign_ok, Hlt).
    rewrite E. cbn [mbind outcome_bind]. destruct (IH (<[j := g p]> ps)) as (ps' & E' & L & K); [rewrite insert_length; exact HF|].
    exists ps'. split; [exact E'|]. rewrite insert_length in L. split; [exact L|]. intros i. rewrite K.
    destruct (decide (i = j)) as [->|N].
    + rewrite (decide_False (P := j ∈ order)) by exact Hj. rewrite decide_True by left. rewrite list_lookup_insert by exact Hlt. rewrite Hp. reflexivity.
    + rewrite list_lookup_insert_ne by auto. destruct (decide (i ∈ order)) as [D|D].
      * rewrite decide_True by (right; exact D). reflexivity.
      * rewrite decide_False; [reflexivity|]. intros X. apply elem_of_cons in X as [X|X]; auto.
Qed.
Lemma pos_fold_all order ps : order_ok (length ps) order -> ofold pos_step ps order = Ok (map g ps).
Proof.
  intros HO. destruct (pos_fold order) with (ps := ps) as (ps' & E & L & K).
  - unfold order_ok in HO. rewrite HO. apply NoDup_seq.
  - apply Forall_forall. intros i Hi. unfold order_ok in HO. rewrite HO in Hi. apply elem_of_seq in Hi. lia.
  - rewrite E. f_equal. apply list_eq. intros i. rewrite K. change (map g ps) with (g <$> ps). rewrite list_lookup_fmap.
    destruct (decide (i ∈ order)) as [D|D]; [reflexivity|]. assert (N : ps !! i = None).
    { apply lookup_ge_None. destruct (le_lt_dec (length ps) i) as [H|H]; [exact H|]. exfalso. apply D. unfold order_ok in HO. rewrite HO. apply elem_of_seq. lia. }
    rewrite N. reflexivity.
Qed.
End Positions.

(** ** Parallel velocity update *)
Section Velocities.
Context {A R : Type} (g : A -> R -> A * R).
Definition vel_step (st : list A * list R) (wi : nat * nat) : outcome (list A * list R) :=
  r ← index (snd st) (fst wi); p ← index (fst st) (snd wi);
  let '(p, r) := g p r in ps ← assign (fst st) (snd wi) p; ws ← assign (snd st) (fst wi) r; Ok (ps, ws).
Lemma vel_step_ok ps ws w i p r : ps !! i = Some p -> ws !! w = Some r ->
  vel_step (ps, ws) (w, i) = Ok (<[i := fst (g p r)]> ps, <[w := snd (g p r)]> ws).
Proof.
  intros Hp Hr. unfold vel_step. cbn [fst snd]. rewrite (proj2 (index_Ok _ _ _) Hr). cbn [mbind outcome_bind]. rewrite (proj2 (index_Ok _ _ _) Hp). cbn [mbind outcome_bind].
  destruct (g p r) as [p' r']. cbn [fst snd]. rewrite assign_ok by (apply lookup_lt_is_Some_1; eauto). cbn [mbind outcome_bind].
  rewrite assign_ok by (apply lookup_lt_is_Some_1; eauto). reflexivity.
Qed.
(** The generator of worker [w] after it has processed its part of the schedule. *)
Definition advance (ps : list A) (r : R) (js : list nat) : R :=
  foldl (fun r j => match ps !! j with Some p => snd (g p r) | None => r end) r js.
Lemma share_app w a b : share w (a ++ b) = share w a ++ share w b.
Proof. unfold share. rewrite filter_app, map_app. reflexivity. Qed.

Lemma share_cons w w' i s : share w ((w', i) :: s) = if decide (w' = w) then i :: share w s else share w s.
Proof. unfold share. rewrite filter_cons. cbn [fst]. destruct (decide _); reflexivity. Qed.
Lemma share_nil w : share w [] = [].
Proof. reflexivity. Qed.

Lemma vel_fold sch : forall ps ws, NoDup (map snd sch) -> Forall (fun wi => wi.1 < length ws /\ wi.2 < length ps) sch ->
  exists ps' ws', ofold vel_step (ps, ws) sch = Ok (ps', ws') /\ length ps' = length ps /\ length ws' = length ws /\
    (forall w r, ws !! w = Some r -> ws' !! w = Some (advance ps r (share w sch))) /\
    (forall i, i ∉ map snd sch -> ps' !! i = ps !! i) /\
    (forall s1 w i s2 p r, sch = s1 ++ (w, i) :: s2 -> ps !! i = Some p -> ws !! w = Some r ->
       ps' !! i = Some (fst (g p (advance ps r (share w s1))))).
Proof.
  induction sch as [|[w i] sch IH] using rev_ind; intros ps ws ND HF.
  - exists ps, ws. split; [reflexivity|]. split_and!; auto. intros s1 ? ? s2 ? ? X. destruct s1; discriminate.
  - rewrite map_app in ND. cbn [map] in ND. apply NoDup_app in ND as (ND & Hdisj & _). apply Forall_app in HF as [HF HL]. apply Forall_inv in HL. cbn [fst snd] in HL. destruct HL as [Hw Hi].
    destruct (IH ps ws ND HF) as (ps1 & ws1 & E1 & L1 & LW1 & A1 & B1 & C1).
    assert (Hnew : i ∉ map snd sch) by (intros X; apply (Hdisj i X); left).
    destruct (lookup_lt_is_Some_2 ps i Hi) as [p Hp]. destruct (lookup_lt_is_Some_2 ws w Hw) as [r Hr].
    assert (Hp1 : ps1 !! i = Some p) by (rewrite (B1 i Hnew); exact Hp). pose proof (A1 w r Hr) as Hr1.
    eexists _, _. rewrite ofold_app, E1. cbn [mbind outcome_bind ofold]. rewrite (vel_step_ok _ _ _ _ _ _ Hp1 Hr1). cbn [mbind outcome_bind].
    split; [reflexivity|]. rewrite !insert_length. split; [exact L1|]. split; [exact LW1|]. split_and!.
    + intros w' r' Hr'. rewrite share_app. destruct (decide (w = w')) as [<-|N].
      * rewrite list_lookup_insert by lia. rewrite Hr in Hr'. apply (inj Some) in Hr' as <-. rewrite share_cons, decide_True, share_nil by reflexivity.
        unfold advance. rewrite foldl_app. cbn [foldl]. rewrite Hp. reflexivity.
      * rewrite list_lookup_insert_ne by exact N. rewrite share_cons, decide_False, share_nil by exact N. rewrite app_nil_r. apply A1, Hr'.
    + intros j Hj. rewrite map_app in Hj. apply not_elem_of_app in Hj as [Hj1 Hj2]. rewrite list_lookup_insert_ne; [apply B1, Hj1|]. intros ->. apply Hj2. left.
    + intros s1 w' i' s2 p' r' E Hp' Hr'. destruct s2 as [|x s2 _] using rev_ind.
      * apply app_inj_2 in E as [E1' E2]; [|reflexivity]. injection E2 as <- <-. subst s1. rewrite list_lookup_insert by lia.
        rewrite Hp in Hp'. apply (inj Some) in Hp' as <-. rewrite Hr in Hr'. apply (inj Some) in Hr' as <-. reflexivity.
      * rewrite app_comm_cons, app_assoc in E. apply app_inj_2 in E as [E2 E3]; [|reflexivity]. injection E3 as <-.
        assert (N : i <> i'). { intros <-. apply Hnew. rewrite E2, map_app. apply elem_of_app. right. left. }
        rewrite list_lookup_insert_ne by exact N. exact (C1 s1 w' i' s2 p' r' E2 Hp' Hr').
Qed.

(** Two schedules in which every worker has the same share, in the same order, give the same result. *)
Lemma vel_fold_interleaving sch sch' ps ws : schedule_ok (length ps) (length ws) sch -> schedule_ok (length ps) (length ws) sch' ->
  (forall w, share w sch = share w sch') -> ofold vel_step (ps, ws) sch = ofold vel_step (ps, ws) sch'.
Proof.
  assert (PREP : forall s, schedule_ok (length ps) (length ws) s -> NoDup (map snd s) /\ Forall (fun wi => wi.1 < length ws /\ wi.2 < length ps) s).
  { intros s [HP HW]. split; [rewrite HP; apply NoDup_seq|]. apply Forall_forall. intros [w i] Hin. split; [exact (proj1 (Forall_forall _ _) HW _ Hin)|].
    assert (X : i ∈ map snd s) by (apply (elem_of_list_fmap_1 snd) in Hin; exact Hin). rewrite HP in X. apply elem_of_seq in X. cbn. lia. }
  intros H H' HS. destruct (PREP _ H) as [ND HF]. destruct (PREP _ H') as [ND' HF'].
  destruct (vel_fold sch ps ws ND HF) as (ps1 & ws1 & E1 & L1 & LW1 & A1 & B1 & C1). destruct (vel_fold sch' ps ws ND' HF') as (ps2 & ws2 & E2 & L2 & LW2 & A2 & B2 & C2).
  rewrite E1, E2. f_equal. f_equal.
  - apply list_eq. intros i.
    destruct (le_lt_dec (length ps) i) as [HL|HL]; [rewrite !lookup_ge_None_2 by lia; reflexivity|].
    destruct (lookup_lt_is_Some_2 ps i HL) as [p Hp].
    assert (Hin : i ∈ map snd sch) by (rewrite (proj1 H); apply elem_of_seq; lia).
    apply elem_of_list_fmap in Hin as ([w j] & Ej & Hin). cbn in Ej. subst j. pose proof Hin as Hin0. apply elem_of_list_split in Hin as (s1 & s2 & Es).
    assert (Hr : w < length ws) by (exact (proj1 (Forall_forall _ _) (proj2 H) _ Hin0)). destruct (lookup_lt_is_Some_2 ws w Hr) as [r Hr'].
    assert (Hsh : share w sch = share w s1 ++ i :: share w s2) by (rewrite Es, share_app; rewrite share_cons, decide_True by reflexivity; reflexivity).
    assert (Hin' : i ∈ share w sch') by (rewrite <- HS, Hsh; apply elem_of_app; right; left).
    apply elem_of_list_fmap in Hin' as ([w' j] & Ej & Hin'). cbn in Ej. subst j. apply elem_of_list_filter in Hin' as [Ew Hin']. cbn in Ew. subst w'.
    apply elem_of_list_split in Hin' as (t1 & t2 & Et).
    assert (Hsh' : share w sch' = share w t1 ++ i :: share w t2) by (rewrite Et, share_app; rewrite share_cons, decide_True by reflexivity; reflexivity).
    assert (Eq : share w s1 = share w t1).
    { assert (NDs : NoDup (share w s1 ++ i :: share w s2)).
      { rewrite <- Hsh. unfold share. clear - ND. induction sch as [|x l IH]; [constructor|]. cbn [map] in ND. apply NoDup_cons in ND as [Hx ND]. rewrite filter_cons. destruct (decide _); [|apply IH, ND].
        cbn [map]. apply NoDup_cons. split; [|apply IH, ND]. intros X. apply Hx. apply elem_of_list_fmap in X as (y & -> & Hy). apply elem_of_list_filter in Hy as [_ Hy]. apply elem_of_list_fmap. eauto. }
      assert (EE : share w s1 ++ i :: share w s2 = share w t1 ++ i :: share w t2) by (rewrite <- Hsh, <- Hsh'; apply HS).
      clear - NDs EE. revert EE NDs. generalize (share w s1) as a, (share w t1) as b, (share w s2) as c, (share w t2) as d. intros a. induction a as [|x a IH]; intros b c d EE NDs.
      - destruct b as [|y b]; [reflexivity|]. cbn in EE. injection EE as <- EE. cbn in NDs. apply NoDup_cons in NDs as [N _]. exfalso. apply N. rewrite EE. apply elem_of_app. right. left.
      - destruct b as [|y b]; cbn in EE; injection EE as Ex EE.
        + cbn in NDs. apply NoDup_cons in NDs as [N _]. exfalso. apply N. subst x. apply elem_of_app. right. left.
        + subst y. f_equal. cbn in NDs. apply NoDup_cons in NDs as [_ NDs]. eapply IH; eauto. }
    rewrite (C1 s1 w i s2 p r Es Hp Hr'), (C2 t1 w i t2 p r Et Hp Hr'), Eq. reflexivity.
  - apply list_eq. intros w. destruct (le_lt_dec (length ws) w) as [HL|HL]; [rewrite !lookup_ge_None_2 by lia; reflexivity|].
    destruct (lookup_lt_is_Some_2 ws w HL) as [r Hr]. rewrite (A1 w r Hr), (A2 w r Hr), HS. reflexivity.
Qed.
(** Every particle is processed once, with the draws of some generator state. *)
Lemma vel_fold_all sch ps ws : schedule_ok (length ps) (length ws) sch ->
  exists ps' ws', ofold vel_step (ps, ws) sch = Ok (ps', ws') /\ length ws' = length ws /\ Forall2 (fun p p' => exists r, p' = fst (g p r)) ps ps'.
Proof.
  intros [HP HW]. destruct (vel_fold sch ps ws) as (ps' & ws' & E & L & LW & _ & _ & C).
  - rewrite HP. apply NoDup_seq.
  - apply Forall_forall. intros [w i] Hin. split; [exact (proj1 (Forall_forall _ _) HW _ Hin)|].
    assert (X : i ∈ map snd sch) by (apply (elem_of_list_fmap_1 snd) in Hin; exact Hin). rewrite HP in X. apply elem_of_seq in X. cbn. lia.
  - exists ps', ws'. split; [exact E|]. split; [exact LW|]. apply Forall2_same_length_lookup_2; [congruence|]. intros i p p' Hp Hp'.
    assert (Hin : i ∈ map snd sch) by (rewrite HP; apply elem_of_seq; split; [lia|apply lookup_lt_is_Some_1; eauto]).
    apply elem_of_list_fmap in Hin as ([w j] & Ej & Hin). cbn in Ej. subst j. assert (Hw : w < length ws) by (exact (proj1 (Forall_forall _ _) HW _ Hin)).
    destruct (lookup_lt_is_Some_2 ws w Hw) as [r Hr]. apply elem_of_list_split in Hin as (s1 & s2 & Es). rewrite (C s1 w i s2 p r Es Hp Hr) in Hp'. apply (inj Some) in Hp' as <-. eauto.
Qed.
End Velocities.
