(** * Proofs about the probes of the firefly algorithm *)
From Verif Require Export FfRunProofs.
From Verif Require Import PsoProbeProofs ProbeSpec.
Open Scope nat_scope.

Lemma pd_step {E P W} (pol : policy E P) (pr : probe E W) p w e : policy_driven pol pr (p, w) e = ('(yes, p) ← pol p e; if yes : bool then w ← pr w e; Ok (p, w) else Ok (p, w)).
Proof. reflexivity. Qed.
Section Logged.
Context {P W : Type} (pr : probe ff_event W) (pol : policy ff_event P) (due : nat -> bool) (n : nat) (Inv : nat -> P -> Prop).
Context (pol_start : forall p, pol p FfStart = Ok (true, p)) (pol_end : forall p, pol p FfEnd = Ok (true, p)).
Context (pol_iter : forall i p, i < n -> Inv i p -> exists p1 p2, pol p (FfIterStart i) = Ok (due i, p1) /\ (forall b x, pol p1 (FfCurrentBest b x) = Ok (due i, p1)) /\
  pol p1 (FfIterEnd i) = Ok (due i, p2) /\ Inv (S i) p2).
Lemma logged_loop (l : list (list (list f64) * f64 * list f64)) : forall i p w, i + length l <= n -> Inv i p -> exists p',
  feed (policy_driven pol pr) (p, w) (concat (imap (fun j '(_, b, x) => [FfIterStart (i + j); FfCurrentBest b x; FfIterEnd (i + j)]) l)) =
  (w' ← feed pr w (concat (imap (fun j '(_, b, x) => if due (i + j) then [FfIterStart (i + j); FfCurrentBest b x; FfIterEnd (i + j)] else []) l)); Ok (p', w')).
Proof.
  induction l as [|[[q b] x] l IH]; intros i p w Hn HI; [exists p; reflexivity|]. rewrite !imap_cons, !concat_cons, Nat.add_0_r. cbn [length] in Hn.
  destruct (pol_iter i p) as (p1 & p2 & A & B & C & D); [lia|exact HI|].
  assert (E1 : imap ((fun (j : nat) '(_, b0, x0) => [FfIterStart (i + j); FfCurrentBest b0 x0; FfIterEnd (i + j)]) ∘ S) l = imap (fun j '((_, b0, x0) : list (list f64) * f64 * list f64) => [FfIterStart (S i + j); FfCurrentBest b0 x0; FfIterEnd (S i + j)]) l).
  { apply imap_ext. intros j [[? ?] ?] _. cbn. repeat f_equal; lia. }
  assert (E2 : imap ((fun (j : nat) '(_, b0, x0) => if due (i + j) then [FfIterStart (i + j); FfCurrentBest b0 x0; FfIterEnd (i + j)] else []) ∘ S) l = imap (fun j '((_, b0, x0) : list (list f64) * f64 * list f64) => if due (S i + j) then [FfIterStart (S i + j); FfCurrentBest b0 x0; FfIterEnd (S i + j)] else []) l).
  { apply imap_ext. intros j [[? ?] ?] _. cbn [compose]. replace (i + S j) with (S i + j) by lia. reflexivity. }
  rewrite E1, E2. clear E1 E2. rewrite !feed_app.
  assert (ST : feed (policy_driven pol pr) (p, w) [FfIterStart i; FfCurrentBest b x; FfIterEnd i] = (w' ← feed pr w (if due i then [FfIterStart i; FfCurrentBest b x; FfIterEnd i] else []); Ok (p2, w'))).
  { rewrite feed_cons. rewrite pd_step. rewrite A. cbn [mbind outcome_bind]. destruct (due i).
    - rewrite feed_cons, !obind_assoc. destruct (pr w _) as [w1| |]; cbn [mbind outcome_bind]; [|reflexivity|reflexivity].
      rewrite !feed_cons. rewrite pd_step. rewrite B. cbn [mbind outcome_bind]. rewrite !obind_assoc. destruct (pr w1 _) as [w2| |]; cbn [mbind outcome_bind]; [|reflexivity|reflexivity].
      rewrite !feed_cons. rewrite pd_step. rewrite C. cbn [mbind outcome_bind]. rewrite !obind_assoc. destruct (pr w2 _) as [w3| |]; reflexivity.
    - cbn [mbind outcome_bind]. rewrite !feed_cons. rewrite pd_step. rewrite B. cbn [mbind outcome_bind].
      rewrite !feed_cons. rewrite pd_step. rewrite C. reflexivity. }
  rewrite ST, !obind_assoc. clear ST.
  destruct (feed pr w (if due i then _ else _)) as [w1| |]; cbn [mbind outcome_bind]; [|exists p; reflexivity|exists p; reflexivity].
  apply (IH (S i) p2 w1); [lia|exact D].
Qed.
Lemma logged_feed l p w : length l <= n -> Inv 0 p -> exists p', feed (policy_driven pol pr) (p, w) (ff_protocol l) = (w' ← feed pr w (ff_logged due l); Ok (p', w')).
Proof.
  intros Hn HI. unfold ff_protocol, ff_logged. rewrite !feed_cons. rewrite pd_step. rewrite pol_start. cbn [mbind outcome_bind]. rewrite !obind_assoc.
  destruct (pr w FfStart) as [w1| |]; cbn [mbind outcome_bind]; [|exists p; reflexivity|exists p; reflexivity]. rewrite !feed_app.
  destruct (logged_loop l 0 p w1) as [p' E]; [lia|exact HI|]. cbn [Nat.add] in E. rewrite E, !obind_assoc.
  destruct (feed pr w1 _) as [w2| |]; cbn [mbind outcome_bind]; [|exists p; reflexivity|exists p; reflexivity]. exists p'.
  rewrite !feed_cons. rewrite pd_step. rewrite pol_end. cbn [mbind outcome_bind]. rewrite !obind_assoc. destruct (pr w2 FfEnd) as [w3| |]; reflexivity.
Qed.
End Logged.

(** ** GenerationInterval *)
Lemma ff_interval_logged {W} (pr : probe ff_event W) debug k t l w : (0 < k)%N -> (N.of_nat (length l) + k <= 2 ^ 32)%N -> exists p',
  feed (policy_driven (ff_interval_policy debug) pr) (gi_new k t, w) (ff_protocol l) = (w' ← feed pr w (ff_logged (every t k) l); Ok (p', w')).
Proof.
  intros Hk HN. apply (logged_feed pr _ (every t k) (length l) (fun i p => gi_interval p = k /\ gi_should_log p = false /\
    (N.of_nat i <= gi_threshold p)%N /\ (t <= gi_threshold p)%N /\ ((gi_threshold p - t) mod k = 0)%N /\ (forall j, i <= j -> (N.of_nat j < gi_threshold p)%N -> every t k j = false))); try reflexivity.
  2: { cbn [gi_new gi_interval gi_should_log gi_threshold]. split; [reflexivity|]; split; [reflexivity|]; split; [lia|]; split; [lia|]; split; [rewrite N.sub_diag; apply N.mod_0_l; lia|]. intros j _ Hj. unfold every. apply andb_false_intro1. apply N.leb_gt. exact Hj. }
  intros i [k' th sl] Hi (A & B & C & D & E & F). cbn [gi_interval gi_should_log gi_threshold] in *. subst k' sl. cbn [ff_interval_policy gi_interval gi_should_log gi_threshold].
  destruct (N.leb_spec th (N.of_nat i)) as [HL|HL].
  - assert (th = N.of_nat i) as -> by lia. assert (DU : every t k i = true). { unfold every. apply andb_true_intro. split; [apply N.leb_le, D|apply N.eqb_eq, E]. }
    unfold u32_add. destruct (N.ltb_spec (N.of_nat i + k) (2 ^ 32)) as [_|HX]; [|exfalso; clear - HN HX Hi; lia]. cbn [mbind outcome_bind].
    eexists _, _. rewrite DU. split; [reflexivity|]. cbn [gi_interval gi_should_log gi_threshold]. split; [reflexivity|]. split; [reflexivity|]. cbn [gi_interval gi_should_log gi_threshold].
    split_and!; auto; [lia|lia| |].
    + replace (N.of_nat i + k - t)%N with ((N.of_nat i - t) + 1 * k)%N by lia. rewrite N.mod_add by lia. exact E.
    + intros j Hj1 Hj2. unfold every. apply andb_false_intro2. apply N.eqb_neq. intros X.
      apply N.mod_divide in X as [a X]; [|lia]. apply N.mod_divide in E as [b E]; [|lia]. assert (Y : (N.of_nat j = N.of_nat i + (a - b) * k)%N \/ (a < b)%N) by (destruct (N.lt_ge_cases a b); [auto|left; rewrite N.mul_sub_distr_r; nia]).
      destruct Y as [Y|Y]; [|nia]. destruct (N.eq_dec (a - b) 0) as [Z|Z]; [rewrite Z in Y; lia|]. assert (1 <= a - b)%N by lia. nia.
  - assert (DU : every t k i = false) by (apply F; lia). rewrite DU. eexists _, _. split; [reflexivity|]. cbn [gi_interval gi_should_log gi_threshold]. split; [reflexivity|]. split; [reflexivity|].
    cbn [gi_interval gi_should_log gi_threshold]. split_and!; auto; [lia|]. intros j Hj. apply F. lia.
Qed.
(** Interval 0: every iteration from the threshold on. *)
Lemma ff_interval_zero {W} (pr : probe ff_event W) debug t l w : (t < 2 ^ 32)%N -> exists p',
  feed (policy_driven (ff_interval_policy debug) pr) (gi_new 0 t, w) (ff_protocol l) = (w' ← feed pr w (ff_logged (fun i => (t <=? N.of_nat i)%N) l); Ok (p', w')).
Proof.
  intros Ht. apply (logged_feed pr _ (fun i => (t <=? N.of_nat i)%N) (length l) (fun i p => p = gi_new 0 t)); try reflexivity.
  intros i p _ ->. cbn [ff_interval_policy gi_new gi_interval gi_should_log gi_threshold]. destruct (t <=? N.of_nat i)%N.
  - unfold u32_add. rewrite N.add_0_r. destruct (N.ltb_spec t (2 ^ 32)) as [_|HX]; [|lia]. cbn [mbind outcome_bind]. eexists _, _. split; [reflexivity|]. split; [reflexivity|]. split; reflexivity.
  - eexists _, _. split; [reflexivity|]. split; [reflexivity|]. split; reflexivity.
Qed.

(** ** ElapsedTime *)
Fixpoint elapsed_states (interval start : N) (now reset : nat -> N) (i : nat) : N :=
  match i with
  | 0 => start
  | S i => let t := elapsed_states interval start now reset i in if (interval <=? (now i - t) / 1000000000)%N then reset i else t
  end.
Lemma ff_elapsed_logged {W} (pr : probe ff_event W) interval construction first now reset l w : exists due p',
  feed (policy_driven (ff_elapsed_policy interval now reset) pr) (ff_elapsed_new construction first, w) (ff_protocol l) = (w' ← feed pr w (ff_logged due l); Ok (p', w')) /\
  forall i, due i = true <-> (interval * 1000000000 <= now i - counted_from due (construction + first * 1000000000) reset i)%N.
Proof.
  set (start := (construction + first * 1000000000)%N).
  exists (fun i => (interval <=? (now i - elapsed_states interval start now reset i) / 1000000000)%N).
  edestruct (logged_feed pr (ff_elapsed_policy interval now reset) (fun i => (interval <=? (now i - elapsed_states interval start now reset i) / 1000000000)%N) (length l)
    (fun i p => p = (elapsed_states interval start now reset i, false))) with (l := l) (p := ff_elapsed_new construction first) (w := w) as [p' E]; try reflexivity.
  - intros [? ?]. reflexivity.
  - intros [? ?]. reflexivity.
  - intros i p _ ->. cbn [ff_elapsed_policy]. cbn [elapsed_states]. destruct (interval <=? _)%N; (eexists _, _; split; [reflexivity|]; split; [reflexivity|]; split; reflexivity).
  - exists p'. split; [exact E|]. intros i.
    assert (CF : counted_from (fun j => (interval <=? (now j - elapsed_states interval start now reset j) / 1000000000)%N) start reset i = elapsed_states interval start now reset i).
    { induction i as [|i IH]; [reflexivity|]. cbn [counted_from elapsed_states]. rewrite IH. reflexivity. }
    rewrite CF. rewrite N.leb_le. generalize (now i - elapsed_states interval start now reset i)%N. intros d. split; intros H.
    + pose proof (N.mul_div_le d 1000000000 ltac:(lia)). nia.
    + apply N.div_le_lower_bound; lia.
Qed.

(** ** Records *)
Lemma ff_records_feed due l : exists log, feed ff_json_probe ff_log_new (ff_logged due l) = Ok log /\
  fl_file log = Some (omap (fun '(i, (_, b, x)) => if due i then Some (i, b, x) else None) (imap pair l)).
Proof.
  unfold ff_logged. rewrite feed_cons. cbn [ff_json_probe ff_log_new mbind outcome_bind]. rewrite feed_app.
  assert (G : forall (l : list (list (list f64) * f64 * list f64)) s rs it b0 x0 file, exists it' b' x',
    feed ff_json_probe (FfLog rs it b0 x0 file) (concat (imap (fun i '(_, b, x) => if due (s + i) then [FfIterStart (s + i); FfCurrentBest b x; FfIterEnd (s + i)] else []) l)) =
    Ok (FfLog (rs ++ omap (fun '(i, (_, b, x)) => if due (s + i) then Some (s + i, b, x) else None) (imap pair l)) it' b' x' file)).
  { clear l. induction l as [|[[p b] x] l IH]; intros s rs it b0 x0 file; [exists it, b0, x0; cbn [imap concat omap list_omap]; rewrite app_nil_r; reflexivity|].
    rewrite !imap_cons, concat_cons, feed_app. cbn [omap list_omap]. rewrite Nat.add_0_r.
    assert (E1 : imap ((fun (i : nat) '(_, b1, x1) => if due (s + i) then [FfIterStart (s + i); FfCurrentBest b1 x1; FfIterEnd (s + i)] else []) ∘ S) l = imap (fun i '((_, b1, x1) : list (list f64) * f64 * list f64) => if due (S s + i) then [FfIterStart (S s + i); FfCurrentBest b1 x1; FfIterEnd (S s + i)] else []) l).
    { apply imap_ext. intros j [[? ?] ?] _. cbn [compose]. replace (s + S j) with (S s + j) by lia. reflexivity. }
    assert (E2 : omap (fun '(i, (_, b1, x1)) => if due (s + i) then Some (s + i, b1, x1) else None) (imap (pair ∘ S) l) = omap (fun '(i, (_, b1, x1)) => if due (S s + i) then Some (S s + i, b1, x1) else None) (imap pair l)).
    { clear. replace (imap (pair ∘ S) l) with (map (fun '(j, x) => (S j, x)) (imap pair l)).
      2: { etransitivity; [apply (fmap_imap pair (fun '(j, x) => (S j, x)))|]. apply imap_ext. reflexivity. }
      induction (imap pair l) as [|[j [[q y] z]] m IH]; [reflexivity|]. cbn [map omap list_omap]. change (map (fun '(j, x) => (S j, x)) m) with ((fun '(j, x) => (S j, x)) <$> m) in *.
      replace (s + S j) with (S s + j) by lia. destruct (due _); [f_equal|]; exact IH. }
    rewrite E1, E2. destruct (due s).
    - change (feed ff_json_probe (FfLog rs it b0 x0 file) [FfIterStart s; FfCurrentBest b x; FfIterEnd s]) with (Ok (FfLog (rs ++ [(s, b, x)]) s b x file)). cbn [mbind outcome_bind].
      destruct (IH (S s) (rs ++ [(s, b, x)]) s b x file) as (it' & b' & x' & E). rewrite E, <- app_assoc. exists it', b', x'. reflexivity.
    - rewrite feed_nil. cbn [mbind outcome_bind]. apply (IH (S s)). }
  destruct (G l 0 [] 0 f0 [] None) as (it' & b' & x' & E). cbn [Nat.add app] in E. eexists. split; [etransitivity; [apply (f_equal (fun o => o ≫= (fun w' => feed ff_json_probe w' [FfEnd]))); exact E|reflexivity]|]. reflexivity.
Qed.
