(** * More proofs about the firefly algorithm: reports, first generation, success and failure, builder, records *)
From Verif Require Export FfProofs.
From Verif Require Import PsoBestProofs PsoProbeProofs BuilderSpec.
Open Scope nat_scope.

(** ** Brightest *)
(** The chosen position k: either an infinitely bright one with none before it, or none is infinitely bright and k is the first maximum of the positive
    brightness values, or there is none and k = 0. *)
Lemma brightest_spec bs : forall i maxpos maxbright, is_nan maxbright = false -> flt maxbright finf = true ->
  let k := brightest i maxpos maxbright bs in
  (exists j, k = i + j /\ bs !! j = Some finf) \/
  ((forall b, b ∈ bs -> b <> finf) /\
    ((k = maxpos /\ forall b, b ∈ bs -> flt maxbright b = false) \/
     (exists j b, k = i + j /\ bs !! j = Some b /\ flt maxbright b = true /\ forall b', b' ∈ bs -> flt b b' = false))).
Proof.
  induction bs as [|b bs IH]; intros i mp mb Nm Hm; cbn [brightest].
  - right. split; [intros b Hb; inversion Hb|]. left. split; [reflexivity|]. intros b Hb. inversion Hb.
  - destruct (feq b finf) eqn:E.
    + left. exists 0. split; [lia|]. cbn. f_equal. destruct b as [[]|[]| |[] ? ?]; cbn in E; try discriminate. reflexivity.
    + assert (Hb : b <> finf) by (intros ->; discriminate E). destruct (flt mb b) eqn:E2.
      * assert (Nb : is_nan b = false) by (eapply flt_nan_r; eauto). assert (Fb : flt b finf = true) by (destruct b as [[]|[]| |[] ? ?]; try discriminate; reflexivity).
        destruct (IH (S i) i b Nb Fb) as [(j & -> & Hj)|[HI HC]]; [left; exists (S j); split; [lia|exact Hj]|]. right.
        split; [intros x Hx; apply elem_of_cons in Hx as [->|Hx]; auto|]. right. destruct HC as [[-> HC]|(j & b1 & -> & Hj & L & HC)].
        -- exists 0, b. split; [lia|]. split; [reflexivity|]. split; [exact E2|]. intros x Hx. apply elem_of_cons in Hx as [->|Hx]; [apply flt_irrefl|auto].
        -- exists (S j), b1. split; [lia|]. split; [exact Hj|]. split; [eapply flt_trans; eauto|]. intros x Hx. apply elem_of_cons in Hx as [->|Hx]; [apply flt_asym, L|auto].
      * destruct (IH (S i) mp mb Nm Hm) as [(j & -> & Hj)|[HI HC]]; [left; exists (S j); split; [lia|exact Hj]|]. right.
        split; [intros x Hx; apply elem_of_cons in Hx as [->|Hx]; auto|]. destruct HC as [[-> HC]|(j & b1 & -> & Hj & L & HC)].
        -- left. split; [reflexivity|]. intros x Hx. apply elem_of_cons in Hx as [->|Hx]; auto.
        -- right. exists (S j), b1. split; [lia|]. split; [exact Hj|]. split; [exact L|]. intros x Hx. apply elem_of_cons in Hx as [->|Hx]; [|auto].
           destruct (flt b1 b) eqn:E3; [|reflexivity]. rewrite (flt_trans mb b1 b L E3) in E2. discriminate.
Qed.

Section Reports.
Context (f : list f64 -> f64) (dist : list f64 -> list f64 -> outcome f64) (powf : f64 -> f64 -> f64) (sq : f64 -> f64) (c : ff_cfg).
(** No firefly among the first n is strictly brighter than the reported one, when some has positive brightness. *)
Lemma reported_brightest (p : list (list f64)) x n : p !! brightest 0 0 f0 (take n (brightness_of f p)) = Some x ->
  (exists y j, j < n /\ p !! j = Some y /\ flt f0 (fdiv f1 (f y)) = true) ->
  forall y j, j < n -> p !! j = Some y -> flt (fdiv f1 (f x)) (fdiv f1 (f y)) = false.
Proof.
  intros Hx (y0 & j0 & Hj0 & Hy0 & Hpos) y j Hj Hy.
  assert (IN : forall z k, k < n -> p !! k = Some z -> fdiv f1 (f z) ∈ take n (brightness_of f p)).
  { intros z k Hk Hz. apply elem_of_list_lookup. exists k. rewrite lookup_take by exact Hk. rewrite bright_lookup, Hz. reflexivity. }
  destruct (brightest_spec (take n (brightness_of f p)) 0 0 f0 eq_refl eq_refl) as [(k & Ek & Hk)|[_ [[_ HC]|(k & b & Ek & Hk & _ & HC)]]].
  - rewrite Ek in Hx. cbn [Nat.add] in Hx. apply lookup_take_Some in Hk as [Hk _]. rewrite bright_lookup, Hx in Hk. apply (inj Some) in Hk. cbv beta in Hk. rewrite Hk. destruct (fdiv f1 (f y)) as [[]|[]| |[] ? ?]; reflexivity.
  - specialize (HC _ (IN y0 j0 Hj0 Hy0)). congruence.
  - rewrite Ek in Hx. cbn [Nat.add] in Hx. apply lookup_take_Some in Hk as [Hk _]. rewrite bright_lookup, Hx in Hk. apply (inj Some) in Hk. cbv beta in Hk. rewrite Hk. apply HC. eapply IN; eauto.
Qed.
Lemma reported_none (p : list (list f64)) x n : p !! brightest 0 0 f0 (take n (brightness_of f p)) = Some x ->
  (forall y j, j < n -> p !! j = Some y -> flt f0 (fdiv f1 (f y)) = false) -> p !! 0 = Some x.
Proof.
  intros Hx HN.
  assert (IN : forall b, b ∈ take n (brightness_of f p) -> flt f0 b = false).
  { intros b Hb. apply elem_of_list_lookup in Hb as [k Hk]. apply lookup_take_Some in Hk as [Hk Hlt]. rewrite bright_lookup in Hk. destruct (p !! k) as [y|] eqn:Hy; [|discriminate]. apply (inj Some) in Hk as <-. eauto. }
  destruct (brightest_spec (take n (brightness_of f p)) 0 0 f0 eq_refl eq_refl) as [(k & Ek & Hk)|[_ [[Ek _]|(k & b & Ek & Hk & HL & _)]]].
  - specialize (IN finf (elem_of_list_lookup_2 _ _ _ Hk)). discriminate.
  - rewrite Ek in Hx. exact Hx.
  - rewrite (IN b (elem_of_list_lookup_2 _ _ _ Hk)) in HL. discriminate.
Qed.

(** ** Values *)
Lemma history_values l : forall i pop best, is_nan best = false -> ff_history f dist powf sq c i pop best l ->
  forall j e, l !! j = Some e -> is_nan e.1.2 = false /\ fle e.1.2 best = true /\
    (is_nan (f e.2) = false -> fle e.1.2 (f e.2) = true) /\
    (e.1.2 = best \/ exists k e', k <= j /\ l !! k = Some e' /\ e.1.2 = f e'.2) /\
    (forall k e', j <= k -> l !! k = Some e' -> fle e'.1.2 e.1.2 = true).
Proof.
  induction l as [|[[p b] x] l IH]; intros i pop best Nb H j e Hj; [discriminate|]. destruct H as (_ & _ & Eb & H).
  assert (B : is_nan b = false /\ fle b best = true /\ (is_nan (f x) = false -> fle b (f x) = true) /\ (b = best \/ b = f x)).
  { rewrite Eb. destruct (flt (f x) best) eqn:E; [assert (N : is_nan (f x) = false) by (eapply flt_nan_l; eauto); split; [exact N|]; split; [apply flt_le, E|]; split; [intros; apply fle_refl, N|auto]|].
    split; [exact Nb|]. split; [apply fle_refl, Nb|]. split; [intros N; apply not_flt_fle; auto|auto]. }
  destruct B as (B1 & B2 & B3 & B4). destruct j as [|j]; cbn in Hj.
  - injection Hj as <-. cbn [fst snd]. split; [exact B1|]. split; [exact B2|]. split; [exact B3|]. split.
    + destruct B4 as [->|B4]; [auto|]. right. exists 0, (p, b, x). split; [lia|]. split; [reflexivity|exact B4].
    + intros [|k] e' Hk He'; cbn in He'; [injection He' as <-; apply fle_refl, B1|]. apply (IH _ _ _ B1 H k e' He').
  - destruct (IH _ _ _ B1 H j e Hj) as (A1 & A2 & A3 & A4 & A5). split; [exact A1|]. split; [eapply fle_trans; eauto|]. split; [exact A3|]. split.
    + destruct A4 as [A4|(k & e' & Hk & He' & A4)].
      * destruct B4 as [B4|B4]; [left; congruence|]. right. exists 0, (p, b, x). split; [lia|]. split; [reflexivity|]. cbn [snd]. congruence.
      * right. exists (S k), e'. split; [lia|]. split; [exact He'|exact A4].
    + intros [|k] e' Hk He'; [lia|]. apply (A5 k e'); [lia|exact He'].
Qed.
Lemma history_lookup l : forall i pop best, ff_history f dist powf sq c i pop best l -> forall j e, l !! j = Some e ->
  Forall2 (moved f dist powf sq c (alfa_at c (j + i)) (f_of_nat (j + i)) (population_after pop (take j l))) (population_after pop (take j l)) e.1.1 /\
  e.1.1 !! brightest 0 0 f0 (take (ff_population_size c) (brightness_of f e.1.1)) = Some e.2.
Proof.
  induction l as [|[[p b] x] l IH]; intros i pop best H j e Hj; [discriminate|]. destruct H as (HM & Hx & _ & H). destruct j as [|j]; cbn in Hj.
  - injection Hj as <-. cbn [fst snd take Nat.add]. auto.
  - destruct (IH _ _ _ H j e Hj) as [A B]. replace (S j + i) with (j + S i) by lia. split; [|exact B].
    unfold population_after in *. cbn [take map fst]. rewrite last_cons_default. exact A.
Qed.
End Reports.

(** ** The first generation *)
Definition infish (x : f64) : Prop := match x with S754_infinity _ | S754_nan => True | _ => False end.
Lemma infish_div0 x : infish (fdiv x f0).
Proof. destruct x as [[]|[]| |[] ? ?]; exact I. Qed.
Lemma infish_add_l x y : infish x -> infish (fadd x y).
Proof. destruct x as [[]|[]| |[] ? ?], y as [[]|[]| |[] ? ?]; intros H; try exact I; contradiction. Qed.
Lemma infish_add_r x y : infish y -> infish (fadd x y).
Proof. destruct x as [[]|[]| |[] ? ?], y as [[]|[]| |[] ? ?]; intros H; try exact I; contradiction. Qed.
Lemma infish_sub_l x y : infish x -> infish (fsub x y).
Proof. destruct x as [[]|[]| |[] ? ?], y as [[]|[]| |[] ? ?]; intros H; try exact I; contradiction. Qed.
Lemma infish_mul_l x y : infish x -> infish (fmul x y).
Proof. destruct x as [[]|[]| |[] ? ?], y as [[]|[]| |[] ? ?]; intros H; try exact I; contradiction. Qed.
Lemma infish_mul_r x y : infish y -> infish (fmul x y).
Proof. destruct x as [[]|[]| |[] ? ?], y as [[]|[]| |[] ? ?]; intros H; try exact I; contradiction. Qed.
Lemma infish_settled lo hi x z : fle lo hi = true -> infish x -> settled lo hi x z -> is_nan z = true \/ z = lo \/ z = hi.
Proof.
  intros Hle Hx [[N ->]|[(A & B & ->)|[[A ->]|[A ->]]]]; auto. destruct x as [|[]| |]; try contradiction; [| |left; reflexivity]; exfalso.
  - destruct lo as [[]|[]| |[] ? ?]; discriminate.
  - destruct hi as [[]|[]| |[] ? ?]; discriminate.
Qed.
Lemma first_generation c k alfa xs ys zs : fle (ff_lower c) (ff_upper c) = true -> flown c k alfa (f_of_nat 0) xs ys zs ->
  Forall (fun z => is_nan z = true \/ z = ff_lower c \/ z = ff_upper c) zs.
Proof.
  intros Hle H. remember (f_of_nat 0) as g eqn:Eg. induction H as [ys|x xs y ys z zs u d U1 U2 D HS HF IH]; [constructor|]. constructor; [|exact IH].
  eapply infish_settled; [exact Hle| |exact HS]. apply infish_add_r, infish_add_r, infish_mul_l, infish_mul_r, infish_sub_l, infish_add_r. rewrite Eg. apply infish_div0.
Qed.

(** ** Success and failure *)
Lemma gen_range_half_total lo hi r : flt lo hi = true -> flt (fsub hi lo) finf = true -> flt (S754_infinity true) (fsub hi lo) = true -> exists v r', gen_range_half lo hi r = Ok (v, r').
Proof. intros A B C. unfold gen_range_half. rewrite A, B, C. eauto. Qed.
Lemma inner_eq dist powf sq c i bright pop alfa g x res moved r j : inner dist powf sq c i bright pop alfa g x (res, moved, r) j =
  (bi ← index bright i; bj ← index bright j;
   if flt bi bj then
     y ← index pop j; d ← dist x y;
     '(res, r) ← fly c (fmul (beta0 c) (powf f_E (fmul (fmul f_m1 (gamma c)) (sq d)))) alfa g x y r;
     Ok (res, true, r)
   else Ok (res, moved, r)).
Proof. reflexivity. Qed.
Section Total.
Context (f : list f64 -> f64) (dist : list f64 -> list f64 -> outcome f64) (powf : f64 -> f64 -> f64) (sq : f64 -> f64) (c : ff_cfg).
Lemma fly_total k alfa g : forall xs ys r, length xs <= length ys -> exists zs r', fly c k alfa g xs ys r = Ok (zs, r').
Proof.
  induction xs as [|x xs IH]; intros ys r HL; cbn [fly]; [eauto|]. destruct ys as [|y ys]; [cbn in HL; lia|].
  destruct (gen_range_half_total f_0_01 f_0_99 r eq_refl eq_refl eq_refl) as (u & r1 & ->). cbn [mbind outcome_bind]. destruct (distribution c r1) as [d r2].
  destruct (IH ys r2) as (zs & r3 & ->); [cbn in HL; lia|]. cbn [mbind outcome_bind]. eauto.
Qed.
Lemma fly_short k alfa g : forall xs ys r, length ys < length xs -> fly c k alfa g xs ys r = Panic.
Proof.
  induction xs as [|x xs IH]; intros ys r HL; cbn [fly]; [cbn in HL; lia|]. destruct ys as [|y ys]; [reflexivity|].
  destruct (gen_range_half_total f_0_01 f_0_99 r eq_refl eq_refl eq_refl) as (u & r1 & ->). cbn [mbind outcome_bind]. destruct (distribution c r1) as [d r2].
  rewrite IH; [reflexivity|cbn in HL; lia].
Qed.
Lemma fly_nd k alfa g xs ys r : fly c k alfa g xs ys r <> Diverge.
Proof.
  destruct (le_lt_dec (length xs) (length ys)) as [H|H]; [destruct (fly_total k alfa g xs ys r H) as (zs & r' & ->); discriminate|]. rewrite fly_short by exact H. discriminate.
Qed.
Lemma brownian_total alfa : forall xs r, exists zs r', brownian powf c alfa xs r = Ok (zs, r').
Proof.
  induction xs as [|x xs IH]; intros r; cbn [brownian]; [eauto|]. destruct (gen_range_half_total f_m1 f1 r eq_refl eq_refl eq_refl) as (u & r1 & ->). cbn [mbind outcome_bind].
  destruct (IH r1) as (zs & r3 & ->). cbn [mbind outcome_bind]. eauto.
Qed.
Context (d : nat) (Hdist : forall x y, length x = d -> length y = d -> exists v, dist x y = Ok v).
Lemma move_total i pop alfa g r : i < length pop -> ff_population_size c <= length pop -> Forall (fun x => length x = d) pop ->
  exists z r', move_firefly dist powf sq c i (brightness_of f pop) pop alfa g r = Ok (z, r').
Proof.
  intros Hi Hn HD. destruct (lookup_lt_is_Some_2 pop i Hi) as [x Hx]. rewrite move_firefly_eq. rewrite (proj2 (index_Ok _ _ _) Hx). cbn [mbind outcome_bind].
  assert (G : forall l st, Forall (fun j => j < length pop) l -> exists res mv r', ofold (inner dist powf sq c i (brightness_of f pop) pop alfa g x) st l = Ok (res, mv, r')).
  { induction l as [|j l IH]; intros [[res mv] r0] HF; [cbn; eauto|]. apply Forall_cons in HF as [Hj HF]. cbn [ofold]. destruct (lookup_lt_is_Some_2 pop j Hj) as [y Hy].
    rewrite inner_eq. assert (B1 : brightness_of f pop !! i = Some (fdiv f1 (f x))) by (rewrite bright_lookup, Hx; reflexivity). assert (B2 : brightness_of f pop !! j = Some (fdiv f1 (f y))) by (rewrite bright_lookup, Hy; reflexivity).
    rewrite (proj2 (index_Ok _ _ _) B1). cbn [mbind outcome_bind]. rewrite (proj2 (index_Ok _ _ _) B2). cbn [mbind outcome_bind]. destruct (flt _ _); [|apply IH, HF].
    rewrite (proj2 (index_Ok _ _ _) Hy). cbn [mbind outcome_bind]. pose proof (proj1 (Forall_lookup _ _) HD i x Hx) as Lx. pose proof (proj1 (Forall_lookup _ _) HD j y Hy) as Ly. cbn in Lx, Ly.
    destruct (Hdist x y Lx Ly) as [v ->]. cbn [mbind outcome_bind].
    match goal with |- context [fly c ?k alfa g x y r0] => destruct (fly_total k alfa g x y r0) as (zs & r1 & ->); [lia|] end. cbn [mbind outcome_bind]. apply IH, HF. }
  destruct (G (seq 0 (ff_population_size c)) (x, false, r)) as (res & mv & r' & ->); [apply Forall_forall; intros j Hj%elem_of_seq; lia|]. cbn [mbind outcome_bind].
  destruct mv; [eauto|]. apply brownian_total.
Qed.
Lemma move_all_total pop alfa g : ff_population_size c <= length pop -> Forall (fun x => length x = d) pop -> forall is r, Forall (fun i => i < length pop) is ->
  exists zs r', move_all dist powf sq c is (brightness_of f pop) pop alfa g r = Ok (zs, r').
Proof.
  intros Hn HD. induction is as [|i is IH]; intros r HF; cbn [move_all]; [eauto|]. apply Forall_cons in HF as [Hi HF].
  destruct (move_total i pop alfa g r Hi Hn HD) as (z & r1 & ->). cbn [mbind outcome_bind]. destruct (IH r1 HF) as (zs & r2 & ->). cbn [mbind outcome_bind]. eauto.
Qed.
Lemma brightest_range bs : forall i mp mb m, mp < m -> i + length bs <= m -> brightest i mp mb bs < m.
Proof.
  induction bs as [|b bs IH]; intros i mp mb m H1 H2; cbn [brightest]; [exact H1|]. cbn [length] in H2. destruct (feq b finf); [lia|]. destruct (flt mb b); apply IH; lia.
Qed.
Context (Hle : fle (ff_lower c) (ff_upper c) = true).
Lemma loop_total n : forall i pop best r, pop <> [] -> ff_population_size c <= length pop -> Forall (fun x => length x = d) pop ->
  exists evs pop', ff_loop f dist powf sq c n i pop (brightness_of f pop) (alfa_at c i) best r = Ok (evs, pop').
Proof.
  induction n as [|n IH]; intros i pop best r Hne Hn HD; cbn [ff_loop]; [eauto|].
  destruct (move_all_total pop (alfa_at c i) (f_of_nat i) Hn HD (seq 0 (length pop)) r) as (p & r1 & E); [apply Forall_forall; intros j Hj%elem_of_seq; lia|].
  rewrite E. cbn [mbind outcome_bind]. apply move_population in E; [|exact Hle].
  assert (LP : length p = length pop) by (symmetry; eapply Forall2_length; eauto).
  assert (NE : 0 < length pop) by (destruct pop; [contradiction|cbn; lia]).
  assert (K : brightest 0 0 f0 (take (ff_population_size c) (brightness_of f p)) < length p).
  { apply brightest_range; [lia|]. rewrite take_length. unfold brightness_of. rewrite map_length. lia. }
  destruct (lookup_lt_is_Some_2 p _ K) as [x Hx]. rewrite (proj2 (index_Ok _ _ _) Hx). cbn [mbind outcome_bind].
  change (fmul (alfa_at c i) (delta c)) with (alfa_at c (S i)).
  destruct (IH (S i) p (if flt (f x) best then f x else best) r1) as (evs & pop' & ->).
  - intros ->. cbn in LP. lia.
  - lia.
  - clear - E HD. revert E HD. generalize pop at 2 3. intros xs E. induction E as [|a b xs zs Hm _ IH]; intros HD; [constructor|]. apply Forall_cons in HD as [H1 HD]. constructor; [|auto]. apply moved_length in Hm. congruence.
  - cbn [mbind outcome_bind]. eauto.
Qed.
End Total.

(** A population that is smaller than the configured size, or empty. *)
Lemma too_small f dist powf sq c pop r : pop <> [] -> length pop < ff_population_size c -> 0 < max_generations c -> (forall x y, dist x y <> Diverge) ->
  ff_run f dist powf sq c pop r = Panic.
Proof.
  intros Hne Hn Hg HD. unfold ff_run. destruct (max_generations c) as [|n]; [lia|]. cbn [ff_loop]. destruct pop as [|x0 pop0] eqn:EP; [contradiction|]. rewrite <- EP in *.
  replace (seq 0 (length pop)) with (0 :: seq 1 (length pop - 1)) by (rewrite EP; cbn [length seq]; f_equal; f_equal; lia).
  cbn [move_all]. assert (Hx : pop !! 0 = Some x0) by (rewrite EP; reflexivity).
  assert (M : move_firefly dist powf sq c 0 (brightness_of f pop) pop (alfa0 c) (f_of_nat 0) r = Panic); [|rewrite M; reflexivity].
  rewrite move_firefly_eq. rewrite (proj2 (index_Ok _ _ _) Hx). cbn [mbind outcome_bind].
  match goal with |- context [ofold ?g ?s ?l] => assert (G : ofold g s l = Panic) end; [|rewrite G; reflexivity].
  assert (IND : forall l st, length pop ∈ l -> ofold (inner dist powf sq c 0 (brightness_of f pop) pop (alfa0 c) (f_of_nat 0) x0) st l = Panic).
  { induction l as [|j l IH]; intros [[res mv] r0] Hin; [inversion Hin|]. cbn [ofold]. rewrite inner_eq.
    assert (B1 : brightness_of f pop !! 0 = Some (fdiv f1 (f x0))) by (rewrite bright_lookup, Hx; reflexivity). rewrite (proj2 (index_Ok _ _ _) B1). cbn [mbind outcome_bind].
    destruct (pop !! j) as [y|] eqn:Hy.
    - assert (B2 : brightness_of f pop !! j = Some (fdiv f1 (f y))) by (rewrite bright_lookup, Hy; reflexivity). rewrite (proj2 (index_Ok _ _ _) B2). cbn [mbind outcome_bind].
      assert (Hin' : length pop ∈ l). { apply elem_of_cons in Hin as [EQ|Hin]; [|exact Hin]. apply lookup_lt_Some in Hy. lia. }
      destruct (flt _ _); [|apply IH, Hin']. rewrite (proj2 (index_Ok _ _ _) Hy). cbn [mbind outcome_bind]. specialize (HD x0 y). destruct (dist x0 y) as [v| |]; [|reflexivity|contradiction].
      cbn [mbind outcome_bind]. match goal with |- context [fly c ?k ?a ?g x0 y r0] => pose proof (fly_nd c k a g x0 y r0) as ND; destruct (fly c k a g x0 y r0) as [[zs r1]| |]; [|reflexivity|contradiction] end.
      cbn [mbind outcome_bind]. apply IH, Hin'.
    - assert (B2 : index (brightness_of f pop) j = Panic) by (unfold index; rewrite bright_lookup, Hy; reflexivity). rewrite B2. reflexivity. }
  apply IND. apply elem_of_seq. lia.
Qed.
Lemma empty_population f dist powf sq c r : 0 < max_generations c -> ff_run f dist powf sq c [] r = Panic.
Proof. intros H. unfold ff_run. destruct (max_generations c); [lia|]. cbn [ff_loop length seq move_all mbind outcome_bind]. reflexivity. Qed.

(** ** Initial population *)
Lemma ff_point_spec lo hi : forall dims r x r', ff_point dims lo hi r = Ok (x, r') -> length x = dims /\ Forall (fun v => fle lo v = true /\ flt v hi = true) x.
Proof.
  induction dims as [|n IH]; intros r x r' H; cbn [ff_point] in H; [injection H as <- <-; auto|]. apply obind_Ok in H as ([v r1] & Hv & H). apply obind_Ok in H as ([xs r2] & Hx & H). injection H as <- <-.
  apply gen_range_half_Ok in Hv. apply IH in Hx as [L F]. split; [cbn; lia|]. constructor; auto.
Qed.
Lemma ff_points_spec lo hi dims : forall n r p r', ff_points n dims lo hi r = Ok (p, r') -> length p = n /\ Forall (fun x => length x = dims /\ Forall (fun v => fle lo v = true /\ flt v hi = true) x) p.
Proof.
  induction n as [|n IH]; intros r x r' H; cbn [ff_points] in H; [injection H as <- <-; auto|]. apply obind_Ok in H as ([v r1] & Hv & H). apply obind_Ok in H as ([xs r2] & Hx & H). injection H as <- <-.
  apply ff_point_spec in Hv. apply IH in Hx as [L F]. split; [cbn; lia|]. constructor; auto.
Qed.
Lemma ff_points_total lo hi dims : flt lo hi = true -> flt (fsub hi lo) finf = true -> flt (S754_infinity true) (fsub hi lo) = true -> forall n r, exists p r', ff_points n dims lo hi r = Ok (p, r').
Proof.
  intros A B C. assert (P : forall k r, exists x r', ff_point k lo hi r = Ok (x, r')).
  { induction k as [|k IH]; intros r; cbn [ff_point]; [eauto|]. destruct (gen_range_half_total lo hi r A B C) as (v & r1 & ->). cbn [mbind outcome_bind]. destruct (IH r1) as (x & r2 & ->). cbn [mbind outcome_bind]. eauto. }
  induction n as [|n IH]; intros r; cbn [ff_points]; [eauto|]. destruct (P dims r) as (x & r1 & ->). cbn [mbind outcome_bind]. destruct (IH r1) as (p & r2 & ->). cbn [mbind outcome_bind]. eauto.
Qed.
Lemma ff_points_panic lo hi dims n r : 0 < dims -> 0 < n -> (flt lo hi = false \/ flt (fsub hi lo) finf = false) -> ff_points n dims lo hi r = Panic.
Proof.
  intros Hd Hn H. destruct n as [|n]; [lia|]. destruct dims as [|d]; [lia|]. cbn [ff_points ff_point]. unfold gen_range_half.
  destruct H as [H|H]; rewrite H, ?andb_false_r; cbn [andb]; reflexivity.
Qed.

(** ** Builder *)
Lemma ff_build_population rastrigin sq setters r a r' : ff_build rastrigin sq setters r = Ok (a, r') ->
  exists pop, from_config ff_default_cfg r = Ok (pop, r') /\
    ff_population a = default pop (last_set (fun s => match s with FfSetPopulation p => Some p | _ => None end) setters) /\
    ff_function a = default rastrigin (last_set (fun s => match s with FfSetFunction g => Some g | _ => None end) setters) /\
    ff_distance a = default (cartesian_distance sq) (last_set (fun s => match s with FfSetDistance g => Some g | _ => None end) setters) /\
    ff_probe a = default 0 (last_set (fun s => match s with FfSetProbe g => Some g | _ => None end) setters) /\
    ff_config a = foldl ff_set_cfg ff_default_cfg setters.
Proof.
  intros H. unfold ff_build, ff_new in H. apply obind_Ok in H as ([a0 r0] & H0 & H). apply obind_Ok in H0 as ([pop r1] & Hp & H0). injection H0 as <- <-. injection H as <- <-.
  exists pop. split; [exact Hp|]. clear Hp. induction setters as [|s l IH] using rev_ind; [repeat split|]. rewrite !foldl_app. cbn [foldl]. rewrite !last_set_snoc.
  set (b := foldl ff_set _ l) in *. clearbody b. destruct b as [cf g p d q]. cbn [ff_population ff_function ff_distance ff_probe ff_config] in IH. destruct IH as (I1 & I2 & I3 & I4 & I5). rewrite <- I5.
  destruct s; cbn [ff_set ff_population ff_function ff_distance ff_probe ff_config default]; split_and!; auto; destruct cf; reflexivity.
Qed.
