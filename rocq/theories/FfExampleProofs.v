(** * The firefly example programs: proofs *)
From Verif Require Import FfExampleModel FfSpec FfProofs FfRunProofs FfProbeProofs PsoProbeProofs ProbeSpec PropsFf PsoExampleProofs.
From Coq Require Import Lia.
Open Scope nat_scope.

Section S.
Context (L : libm).
Local Instance NS : Num f64 := num_f64 L.
Lemma sphere_sign x v : sphere x = Ok v -> nonneg_or_nan v.
Proof.
  unfold sphere. intros H. apply obind_Ok in H as (_ & _ & H). apply ok_inj in H as <-.
  assert (H0 : nonneg_or_nan (nlit 0 1)) by (right; reflexivity). revert H0. generalize (nlit 0 1).
  induction x as [|a x IH]; intros acc H0; [exact H0|]. cbn [foldl]. apply IH. rewrite (powi2_eq L). apply add_sign; [exact H0|]. apply mul_sign; [right; reflexivity|]. apply sq_sign.
Qed.
End S.

Definition ff_run_facts (L : libm) (value : nat -> f64) (position : nat -> list f64) : Prop :=
  forall i, i < 1000 ->
    is_nan (value i) = false /\ fle f0 (value i) = true /\ (forall j, i <= j -> j < 1000 -> fle (value j) (value i) = true) /\
    (value i = fmax \/ exists k, k <= i /\ sphere (num := num_f64 L) (position k) = Ok (value i)) /\
    (forall k v, k <= i -> sphere (num := num_f64 L) (position k) = Ok v -> is_nan v = false -> fle (value i) v = true) /\
    length (position i) = 2 /\ Forall (in_bounds (fneg (f_of_nat 5)) (f_of_nat 5)) (position i).

Lemma as_seq {A} (d : A) (l : list A) : l = map (fun i => nth i l d) (seq 0 (length l)).
Proof.
  apply list_eq. intros i. change (map ?f ?x) with (f <$> x). rewrite list_lookup_fmap. destruct (decide (i < length l)) as [H|H].
  - rewrite lookup_seq_lt by exact H. cbn. destruct (lookup_lt_is_Some_2 l i H) as [x Hx]. rewrite Hx. f_equal. symmetry. apply nth_lookup_Some, Hx.
  - rewrite lookup_ge_None_2 by lia. rewrite lookup_seq_ge by lia. reflexivity.
Qed.
Lemma imap_seq {A B} (f : nat -> A -> B) (g : nat -> A) : forall n s, imap (fun i => f (s + i)) (map g (seq s n)) = map (fun i => f i (g i)) (seq s n).
Proof.
  induction n as [|n IH]; intros s; [reflexivity|]. cbn [seq map]. rewrite imap_cons, Nat.add_0_r. f_equal. rewrite <- IH. apply imap_ext. intros i x _. cbn [compose]. f_equal. lia.
Qed.

Lemma default_run L powf sq r : exists value position evs pop r1 pop',
  from_config ff_default_cfg r = Ok (pop, r1) /\
  ff_run (sphere_objective L) (cartesian_distance sq) powf sq ff_default_cfg pop r1 = Ok (evs, pop') /\
  (exists p : nat -> list (list f64), evs = ff_protocol (map (fun i => (p i, value i, position i)) (seq 0 1000))) /\ ff_run_facts L value position.
Proof.
  destruct (ff_points_total (fneg (f_of_nat 5)) (f_of_nat 5) 2 eq_refl eq_refl eq_refl 25 r) as (pop & r1 & HP).
  destruct (ff_points_spec _ _ _ _ _ _ _ HP) as [HN HD].
  assert (HD2 : Forall (fun x => length x = 2) pop) by (eapply Forall_impl; [exact HD|intros x [A _]; exact A]).
  destruct (C68_run_succeeds (sphere_objective L) (cartesian_distance sq) powf sq ff_default_cfg 2 pop r1) as (l0 & pop' & HR & _); [reflexivity|intros ->; discriminate HN|cbn; lia|exact HD2| |].
  { intros x y Hx Hy. apply C68_distances_total. congruence. }
  destruct (run_history (sphere_objective L) (cartesian_distance sq) powf sq ff_default_cfg eq_refl pop r1 _ pop' HR) as (l & HL & HE & _ & HH).
  set (d := (@nil (list f64), f0, @nil f64)).
  exists (fun i => (nth i l d).1.2), (fun i => (nth i l d).2), (ff_protocol l0), pop, r1, pop'. split; [exact HP|]. split; [exact HR|]. split.
  { exists (fun i => (nth i l d).1.1). rewrite HE. f_equal. rewrite (as_seq d l) at 1. change (max_generations ff_default_cfg) with 1000 in HL. rewrite HL. apply map_ext. intros i. destruct (nth i l d) as [[a b] c]. reflexivity. }
  change (max_generations ff_default_cfg) with 1000 in HL.
  assert (AT : forall i, i < 1000 -> l !! i = Some ((nth i l d).1.1, (nth i l d).1.2, (nth i l d).2)).
  { intros i Hi. destruct (lookup_lt_is_Some_2 l i) as [x Hx]; [lia|]. rewrite (nth_lookup_Some l i d x Hx), Hx. destruct x as [[a b] c]. reflexivity. }
  pose proof (history_values _ _ _ _ _ l 0 pop fmax eq_refl HH) as HV. pose proof (history_shape (sphere_objective L) (cartesian_distance sq) powf sq ff_default_cfg eq_refl l 0 pop fmax HH) as HS.
  assert (SH : forall i, i < 1000 -> length (nth i l d).2 = 2 /\ Forall (in_bounds (fneg (f_of_nat 5)) (f_of_nat 5)) (nth i l d).2).
  { intros i Hi. destruct (proj1 (Forall_forall _ _) HS _ (elem_of_list_lookup_2 _ _ _ (AT i Hi))) as (S1 & S2 & S3). cbn [fst snd] in *. split; [|exact (proj1 (Forall_forall _ _) S2 _ S3)].
    apply elem_of_list_lookup in S3 as [j S3]. unfold same_shape in S1. apply (f_equal (lookup j)) in S1. change (map length ?x) with (length <$> x) in S1. rewrite !list_lookup_fmap, S3 in S1. cbn in S1.
    destruct (pop !! j) as [y|] eqn:Ey; [|discriminate S1]. apply (inj Some) in S1. rewrite <- S1. exact (proj1 (Forall_lookup _ _) HD2 j y Ey). }
  assert (SP : forall i, i < 1000 -> sphere (num := num_f64 L) (nth i l d).2 = Ok (sphere_objective L (nth i l d).2)).
  { intros i Hi. destruct (SH i Hi) as [A _]. unfold sphere_objective. destruct (nth i l d).2 as [|a x]; [discriminate A|]. reflexivity. }
  assert (N0 : forall i, i < 1000 -> F64.is_nan (nth i l d).1.2 = false) by (intros i Hi; apply (HV i _ (AT i Hi))).
  intros i Hi. destruct (HV i _ (AT i Hi)) as (A1 & A2 & A3 & A4 & A5). cbn [fst snd] in *.
  assert (SRC : (nth i l d).1.2 = fmax \/ exists k, k <= i /\ sphere (num := num_f64 L) (nth k l d).2 = Ok (nth i l d).1.2).
  { destruct A4 as [A4|(k & [[p' b'] x'] & Hk & He & A4)]; [auto|]. right. exists k. split; [exact Hk|]. cbn [fst snd] in A4. rewrite SP by lia. f_equal. rewrite (AT k) in He by lia. apply (inj Some) in He. injection He as _ _ <-. symmetry. exact A4. }
  split; [exact A1|]. split; [|split; [|split; [exact SRC|split; [|exact (SH i Hi)]]]].
  - destruct SRC as [->|(k & Hk & E)]; [reflexivity|]. apply sphere_sign in E as [E|E]; [congruence|exact E].
  - intros j Hj Hj'. exact (A5 j _ Hj (AT j Hj')).
  - intros k v Hk Hs Nv. rewrite SP in Hs by lia. apply ok_inj in Hs. subst v. destruct (HV k _ (AT k ltac:(lia))) as (_ & _ & B3 & _ & B5). cbn [fst snd] in *.
    exact (fle_trans _ _ _ (B5 i _ Hk (AT i Hi)) (B3 Nv)).
Qed.

Definition text_of (e : ff_event) : ff_text :=
  match e with FfStart => TextStart | FfIterStart i => TextIteration i | FfCurrentBest v x => TextBest v x | FfIterEnd _ => TextRule | FfEnd => TextEnd end.
Lemma stdout_feed evs : forall out, feed ff_stdout_probe out evs = Ok (out ++ map text_of evs).
Proof.
  induction evs as [|e evs IH]; intros out; [rewrite feed_nil; cbn [map]; rewrite app_nil_r; reflexivity|].
  rewrite feed_cons. change (ff_stdout_probe out e) with (Ok (out ++ [text_of e])). cbn [mbind outcome_bind]. rewrite IH, <- app_assoc. reflexivity.
Qed.
Lemma protocol_text (value : nat -> f64) (position : nat -> list f64) (p : nat -> list (list f64)) n :
  map text_of (ff_protocol (map (fun i => (p i, value i, position i)) (seq 0 n))) =
  TextStart :: concat (map (fun i => [TextIteration i; TextBest (value i) (position i); TextRule]) (seq 0 n)) ++ [TextEnd].
Proof.
  unfold ff_protocol. cbn [map text_of]. rewrite map_app. cbn [map text_of]. apply (f_equal (cons TextStart)), (f_equal (fun z => z ++ [TextEnd])).
  pose proof (imap_seq (fun i '((_, b, x) : list (list f64) * f64 * list f64) => [FfIterStart i; FfCurrentBest b x; FfIterEnd i]) (fun i => (p i, value i, position i)) n 0) as E.
  cbn [Nat.add] in E. cbv beta iota in E. etransitivity; [apply (f_equal (fun z => map text_of (concat z))); exact E|]. clear E. rewrite concat_map, map_map. reflexivity.
Qed.
Lemma solve_feed {W} (P : probe ff_event W) (w : W) (c : ff_cfg) f d k powf sq r pop r1 evs pop' :
  from_config c r = Ok (pop, r1) -> ff_run f d powf sq c pop r1 = Ok (evs, pop') ->
  ('(a, r) ← ('(pop, r) ← from_config c r; Ok (Firefly c f k d pop, r)); '(evs, _) ← ff_solve powf sq a r; feed P w evs) = feed P w evs.
Proof. intros HP HR. rewrite HP. cbn [mbind outcome_bind]. unfold ff_solve. cbn [ff_function ff_distance ff_config ff_population]. rewrite HR. reflexivity. Qed.
Lemma ff_example_run L powf sq r : exists value position,
  ff_example L powf sq r = Ok (TextStart :: concat (map (fun i => [TextIteration i; TextBest (value i) (position i); TextRule]) (seq 0 1000)) ++ [TextEnd]) /\
  ff_run_facts L value position.
Proof.
  destruct (default_run L powf sq r) as (value & position & evs & pop & r1 & pop' & HP & HR & (p & HE) & HF). exists value, position. split; [|exact HF].
  etransitivity; [exact (solve_feed ff_stdout_probe [] ff_default_cfg _ _ 0 powf sq r pop r1 evs pop' HP HR)|].
  rewrite stdout_feed, HE, protocol_text. reflexivity.
Qed.
Lemma logged_at (value : nat -> f64) (position : nat -> list f64) (p : nat -> list (list f64)) :
  ff_logged (every 25 15) (map (fun i => (p i, value i, position i)) (seq 0 1000)) =
  FfStart :: concat (map (fun k => [FfIterStart (25 + 15 * k); FfCurrentBest (value (25 + 15 * k)) (position (25 + 15 * k)); FfIterEnd (25 + 15 * k)]) (seq 0 65)) ++ [FfEnd].
Proof. vm_compute. reflexivity. Qed.
Lemma both_feed (value : nat -> f64) (position : nat -> list f64) : exists csv,
  feed both_probes ([], ff_csv_new) (FfStart :: concat (map (fun k => [FfIterStart (25 + 15 * k); FfCurrentBest (value (25 + 15 * k)) (position (25 + 15 * k)); FfIterEnd (25 + 15 * k)]) (seq 0 65)) ++ [FfEnd]) =
    Ok (TextStart :: concat (map (fun k => [TextIteration (25 + 15 * k); TextBest (value (25 + 15 * k)) (position (25 + 15 * k)); TextRule]) (seq 0 65)) ++ [TextEnd], csv) /\
  fc_file csv = Some (map (fun k => (25 + 15 * k, value (25 + 15 * k))) (seq 0 65)).
Proof.
  exists (FfCsv (map (fun k => (25 + 15 * k, value (25 + 15 * k))) (seq 0 65)) 985 (value 985) (position 985) (Some (map (fun k => (25 + 15 * k, value (25 + 15 * k))) (seq 0 65)))).
  split; [vm_compute; reflexivity|reflexivity].
Qed.
Lemma solve_logged {W S} (P : probe ff_event (S * W)) (w : S * W) (c : ff_cfg) f d k powf sq r pop r1 evs pop' s out :
  from_config c r = Ok (pop, r1) -> ff_run f d powf sq c pop r1 = Ok (evs, pop') -> feed P w evs = Ok (s, out) ->
  ('(a, r) ← ('(pop, r) ← from_config c r; Ok (Firefly c f 0 d pop, r)); let a := ff_set a (FfSetProbe k) in '(evs, _) ← ff_solve powf sq a r; '(_, out) ← feed P w evs; Ok out) = Ok out.
Proof. intros HP HR HF. rewrite HP. cbn [mbind outcome_bind ff_set]. unfold ff_solve. cbn [ff_function ff_distance ff_config ff_population]. rewrite HR. cbn [mbind outcome_bind]. rewrite HF. reflexivity. Qed.
Lemma ff_logging_run debug L powf sq r : exists value position csv,
  ff_logging_example debug L powf sq r = Ok (TextStart :: concat (map (fun k => [TextIteration (25 + 15 * k); TextBest (value (25 + 15 * k)) (position (25 + 15 * k)); TextRule]) (seq 0 65)) ++ [TextEnd], csv) /\
  fc_file csv = Some (map (fun k => (25 + 15 * k, value (25 + 15 * k))) (seq 0 65)) /\ ff_run_facts L value position.
Proof.
  destruct (default_run L powf sq r) as (value & position & evs & pop & r1 & pop' & HP & HR & (p & HE) & HF). destruct (both_feed value position) as (csv & E1 & E2).
  exists value, position, csv. split; [|split; [exact E2|exact HF]].
  destruct (ff_interval_logged both_probes debug 15 25 (map (fun i => (p i, value i, position i)) (seq 0 1000)) ([], ff_csv_new)) as [p' E]; [reflexivity|rewrite map_length, seq_length; vm_compute; discriminate|].
  rewrite <- HE in E. refine (solve_logged _ _ ff_default_cfg _ _ 1 powf sq r pop r1 evs pop' _ _ HP HR _). etransitivity; [exact E|]. rewrite logged_at, E1. reflexivity.
Qed.
