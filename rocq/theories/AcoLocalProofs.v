(** * Local updates within one building of paths: proofs *)
From Verif Require Import AcoModel AcoSpec AcoLocalSpec AcoAntProofs AcoUtilProofs.
From Coq Require Import Lia.
Open Scope nat_scope.

Definition going_on (ants : list ant) : list (list nat) := map a_path (filter (fun a => a_stuck a = false) ants).
Lemma round_grown g : forall ants ps ants', acs_round g ants = Ok (ps, ants') ->
  Forall2 (fun q q' => exists v, q' = q ++ [v]) (going_on ants) ps /\ sublist (going_on ants') ps.
Proof.
  induction ants as [|a ants IH]; intros ps ants' H; cbn [acs_round] in H; [injection H as <- <-; split; [constructor|reflexivity]|].
  destruct (a_stuck a) eqn:Es.
  - apply obind_Ok in H as ([ps1 as1] & H1 & H). injection H as <- <-. destruct (IH _ _ H1) as [A B]. unfold going_on. rewrite !filter_cons. rewrite !decide_False by congruence. auto.
  - apply obind_Ok in H as ([[l v] a1] & Hst & H). apply obind_Ok in H as ([ps1 as1] & H1 & H). injection H as <- <-. destruct (IH _ _ H1) as [A B].
    unfold going_on. rewrite !filter_cons. rewrite decide_True by exact Es. split.
    + cbn [map]. constructor; [|exact A]. clear -Hst Es. unfold ant_step in Hst. apply obind_Ok in Hst as (x & Hx & H). rewrite Es in H.
      apply obind_Ok in H as ([] & _ & H). apply obind_Ok in H as ([] & _ & H). apply obind_Ok in H as ([order h] & _ & H). apply obind_Ok in H as ([w r] & _ & H). injection H as <- <- <-.
      cbn [a_path]. eauto.
    + destruct (decide (a_stuck a1 = false)) as [E|E]; cbn [map]; [apply sublist_skip, B|apply sublist_cons, B].
Qed.

Lemma sublist_Forall {A} (P : A -> Prop) l1 l2 : sublist l1 l2 -> Forall P l2 -> Forall P l1.
Proof. induction 1 as [|x l1 l2 S IH|x l1 l2 S IH]; intros F; [constructor| |]; inversion_clear F; [constructor|]; auto. Qed.
Lemma sublist_full {A} (l1 l2 : list A) : sublist l1 l2 -> length l1 = length l2 -> l1 = l2.
Proof. induction 1 as [|x l1 l2 S IH|x l1 l2 S IH]; intros E; cbn in E; [reflexivity|f_equal; apply IH; lia|]. pose proof (sublist_length _ _ S). lia. Qed.

Inductive chain : list (list nat) -> list (list (list nat)) -> Prop :=
| chain_nil ps : chain ps []
| chain_cons ps ps' rs : grown ps ps' -> chain ps' rs -> chain ps (ps' :: rs).
Lemma sublist_grown going ps ps' : sublist going ps -> grown going ps' -> grown ps ps'.
Proof. intros H (g & Hg & F). exists g. split; [etransitivity; eauto|exact F]. Qed.
Lemma chain_sub going ps rs : sublist going ps -> chain going rs -> chain ps rs.
Proof. intros H C. inversion C; subst; constructor; [eapply sublist_grown; eauto|assumption]. Qed.
Lemma rounds_chain op local : forall n paths ants p paths' ants' p', acs_rounds op local n paths ants p = Ok (paths', ants', p') ->
  exists rs, length rs = n /\ chain (going_on ants) rs /\ ofold local p rs = Ok p' /\ paths' = List.last rs paths.
Proof.
  induction n as [|n IH]; intros paths ants p paths' ants' p' H; cbn [acs_rounds] in H.
  - injection H as <- <- <-. exists []. split_and!; [reflexivity|constructor|reflexivity|reflexivity].
  - apply obind_Ok in H as (g & _ & H). apply obind_Ok in H as ([ps as'] & H1 & H). apply obind_Ok in H as (p1 & H2 & H).
    destruct (IH _ _ _ _ _ _ H) as (rs & HL & HC & HO & HE). destruct (round_grown _ _ _ _ H1) as [A B]. exists (ps :: rs). split_and!.
    + cbn. lia.
    + constructor; [exists (going_on ants); split; [reflexivity|exact A]|eapply chain_sub; eauto].
    + rewrite ofold_cons, H2. exact HO.
    + rewrite HE. clear. destruct rs as [|r rs]; [reflexivity|]. revert r ps. induction rs as [|s rs IH]; intros r ps; [reflexivity|]. exact (IH s ps).
Qed.
Lemma starts op local n ants p : omapM (fun a => ant_start (ant_clear a)) ants = Ok op -> Forall (usable n) ants -> 
  local = going_on op -> p = length ants -> length local = p /\ Forall (fun q => length q = 1) local.
Proof.
  intros H Hu -> ->. revert op H Hu. induction ants as [|a ants IH]; intros op H Hu; cbn [omapM] in H; [injection H as <-; split; [reflexivity|constructor]|].
  apply obind_Ok in H as (a0 & H0 & H). apply obind_Ok in H as (as' & H1 & H). injection H as <-. inversion_clear Hu as [|? ? Ha Hus].
  destruct (IH _ H1 Hus) as [A B]. destruct (start_walking n a a0 Ha H0) as (_ & Es & Hl). unfold going_on. rewrite filter_cons, decide_True by exact Es. cbn [map length]. split; [f_equal; exact A|constructor; assumption].
Qed.
Lemma chain_lookup : forall rs ps, chain ps rs -> forall k q q', (ps :: rs) !! k = Some q -> rs !! k = Some q' -> grown q q'.
Proof.
  induction rs as [|r rs IH]; intros ps C k q q' H1 H2; [discriminate|]. inversion C as [|? ? ? G C']; subst. destruct k as [|k]; cbn in H1, H2.
  - injection H1 as <-. injection H2 as <-. exact G.
  - eapply IH; eauto.
Qed.
Lemma grown_lengths k ps ps' : grown ps ps' -> Forall (fun q => length q = k) ps -> Forall (fun q => length q = k + 1) ps' /\ length ps' <= length ps.
Proof.
  intros (g & S & F) H. pose proof (sublist_length _ _ S) as L. pose proof (Forall2_length _ _ _ F) as L'. split; [|lia].
  assert (HG : Forall (fun q => length q = k) g) by exact (sublist_Forall _ _ _ S H).
  clear -F HG. induction F as [|q q' g ps' (v & ->) F IH]; [constructor|]. inversion_clear HG. constructor; [|auto]. rewrite app_length. cbn. lia.
Qed.
Lemma chain_lengths : forall rs k ps, chain ps rs -> Forall (fun q => length q = k) ps -> forall j r, rs !! j = Some r -> Forall (fun q => length q = k + j + 1) r /\ length r <= length ps.
Proof.
  induction rs as [|r rs IH]; intros k ps C H j q Hj; [discriminate|]. inversion C as [|? ? ? G C']; subst. destruct (grown_lengths _ _ _ G H) as [H' L].
  destruct j as [|j]; cbn in Hj; [injection Hj as <-; rewrite Nat.add_0_r; auto|]. destruct (IH _ _ C' H' j q Hj) as [A B]. replace (k + S j + 1) with (k + 1 + j + 1) by lia. split; [exact A|lia].
Qed.
Lemma last_lookup {A} (d : A) : forall l, l <> [] -> l !! (length l - 1) = Some (List.last l d).
Proof.
  induction l as [|x l IH]; intros H; [congruence|]. destruct l as [|y l]; [reflexivity|]. specialize (IH ltac:(discriminate)). cbn [length] in *.
  replace (S (S (length l)) - 1) with (S (S (length l) - 1)) by lia. cbn. exact IH.
Qed.

(** All ants get to the end *)
Lemma grown_all ps ps' : grown ps ps' -> length ps' = length ps -> Forall2 (fun q q' => exists v, q' = q ++ [v]) ps ps'.
Proof. intros (g & S & F) L. rewrite (sublist_full _ _ S) in F; [exact F|]. rewrite <- L. exact (Forall2_length _ _ _ F). Qed.
Lemma last_cons {A} (rs : list A) r d : List.last (r :: rs) d = List.last rs r.
Proof. revert r d. induction rs as [|s rs IH]; intros r d; [reflexivity|]. change (List.last (r :: s :: rs) d) with (List.last (s :: rs) d). rewrite !IH. reflexivity. Qed.
Lemma chain_full : forall rs ps k, chain ps rs -> Forall (fun q => length q = k) ps -> length (List.last rs ps) = length ps ->
  forall j, j < length rs -> rs !! j = Some (map (take (k + j + 1)) (List.last rs ps)).
Proof.
  induction rs as [|r rs IH]; intros ps k C H L j Hj; [cbn in Hj; lia|]. inversion C as [|? ? ? G C']; subst. destruct (grown_lengths _ _ _ G H) as [H' Lr].
  rewrite last_cons in *. set (f := List.last rs r) in *.
  assert (Lf : length f = length r).
  { destruct rs as [|r1 rs]; [reflexivity|]. destruct (chain_lengths _ _ _ C' H' _ _ (last_lookup r (r1 :: rs) ltac:(discriminate))) as [_ X]. fold f in X. lia. }
  specialize (IH r (k + 1) C' H' Lf). fold f in IH. destruct j as [|j].
  - cbn [lookup list_lookup]. f_equal. replace (k + 0 + 1) with (k + 1) by lia. destruct rs as [|r1 rs].
    + unfold f. cbn [List.last]. clear -H'. induction H' as [|q r Hq Hr IH]; [reflexivity|]. cbn [map]. rewrite take_ge by lia. f_equal. exact IH.
    + clearbody f. specialize (IH 0 ltac:(cbn; lia)). cbn in IH. injection IH as ->. inversion C' as [|? ? ? G' _]; subst.
      assert (A := grown_all _ _ G' ltac:(rewrite map_length; exact Lf)). clear -A H'.
      revert r A H'. generalize f. clear f. induction f as [|q f IH]; intros r A H'; inversion A as [|q0 ? r0 ? (v & Hv) A']; subst; [reflexivity|]. inversion_clear H' as [|? ? Hq Hr].
      cbn [map]. f_equal; [|apply IH; assumption]. replace (k + 1) with (length q0) by exact Hq. assert (E : take (length q0) (take (k + 1 + 0 + 1) q) = q0) by (rewrite Hv; apply take_app).
      rewrite take_take, Nat.min_l in E by lia. exact (eq_sym E).
  - cbn. rewrite IH by (cbn in Hj; lia). replace (k + S j + 1) with (k + 1 + j + 1) by lia. reflexivity.
Qed.

(** One colony run *)
Lemma acs_local op local n ants p paths ants' p' : nrows p = n -> Forall (usable n) ants -> ant_colony_system op local ants p = Ok (paths, ants', p') ->
  exists rounds, length rounds = n - 1 /\ ofold local p rounds = Ok p' /\ List.last rounds [] = paths /\ (forall k ps, rounds !! k = Some ps -> Forall (fun q => length q = k + 2) ps /\ length ps <= length ants) /\ (forall k ps ps', rounds !! k = Some ps -> rounds !! (k + 1) = Some ps' -> grown ps ps').
Proof.
  intros Hr Hu H. apply obind_Ok in H as (ants0 & H0 & H). rewrite Hr in H. destruct (rounds_chain _ _ _ _ _ _ _ _ _ H) as (rs & HL & HC & HO & HE).
  destruct (starts ants0 _ n ants _ H0 Hu eq_refl eq_refl) as [SL SF]. exists rs. split_and!; [exact HL|exact HO|exact (eq_sym HE)| |].
  - intros k ps Hk. destruct (chain_lengths _ _ _ HC SF _ _ Hk) as [A B]. split; [|lia]. replace (k + 2) with (1 + k + 1) by lia. exact A.
  - intros k ps ps' H1 H2. eapply (chain_lookup _ _ HC (k + 1)); [|exact H2]. rewrite Nat.add_1_r. exact H1.
Qed.
Lemma acs_local_all op local n ants p paths ants' p' : nrows p = n -> Forall (usable n) ants -> ant_colony_system op local ants p = Ok (paths, ants', p') ->
  length paths = length ants -> ofold (fun m k => local m (map (take k) paths)) p (seq 2 (n - 1)) = Ok p'.
Proof.
  intros Hr Hu H L. apply obind_Ok in H as (ants0 & H0 & H). rewrite Hr in H. destruct (rounds_chain _ _ _ _ _ _ _ _ _ H) as (rs & HL & HC & HO & HE).
  destruct (starts ants0 _ n ants _ H0 Hu eq_refl eq_refl) as [SL SF].
  destruct rs as [|r rs]; [cbn in HL; rewrite <- HL; exact HO|].
  assert (E : List.last (r :: rs) (going_on ants0) = paths) by (rewrite HE, !last_cons; reflexivity).
  assert (X := chain_full _ _ _ HC SF). rewrite E in X. specialize (X ltac:(lia)). rewrite HL in X.
  replace (r :: rs) with (map (fun k => map (take k) paths) (seq 2 (n - 1))) in HO.
  - rewrite <- HO. generalize (seq 2 (n - 1)). clear. intros l. revert p. induction l as [|k l IH]; intros p; [reflexivity|]. cbn [ofold map]. destruct (local p _); [|reflexivity..]. cbn [mbind outcome_bind]. apply IH.
  - apply list_eq. intros j. destruct (decide (j < n - 1)) as [Hj|Hj].
    + rewrite X by exact Hj. change (map ?f ?l) with (f <$> l) at 1. rewrite list_lookup_fmap, lookup_seq_lt by exact Hj. cbn [fmap option_fmap option_map]. replace (1 + j + 1) with (2 + j) by lia. reflexivity.
    + rewrite !lookup_ge_None_2; [reflexivity|lia|rewrite map_length, seq_length; lia].
Qed.

(** Edge by edge *)
Lemma steps_snoc q x v : steps ((q ++ [x]) ++ [v]) = steps (q ++ [x]) ++ [(x, v)].
Proof.
  unfold steps. destruct q as [|y q]; [reflexivity|]. cbn [app tail]. revert y. induction q as [|z q IH]; intros y; [reflexivity|]. cbn [app zip zip_with]. f_equal. apply IH.
Qed.
Lemma walks_cons a b p ps : walks a b (p :: ps) = length (filter (fun e => e = (a, b)) (steps p)) + walks a b ps.
Proof. unfold walks. cbn [map concat]. rewrite filter_app, app_length. reflexivity. Qed.
Lemma iter_add {A} (f : A -> A) m n x : Nat.iter (m + n) f x = Nat.iter n f (Nat.iter m f x).
Proof. induction n as [|n IH]; [rewrite Nat.add_0_r; reflexivity|]. rewrite <- plus_n_Sm. cbn. f_equal. exact IH. Qed.
Lemma grown_walks f a b : forall ps ps', Forall2 (fun q q' => exists v, q' = q ++ [v]) ps ps' -> Forall (fun q => q <> []) ps -> forall v v', after_steps f a b ps' v v' ->
  exists d, walks a b ps' = walks a b ps + d /\ v' = Nat.iter d f v.
Proof.
  induction 1 as [|q q' ps ps' (w & ->) F IH]; intros N v v' H; [inversion H; subst; exists 0; split; reflexivity|]. inversion_clear N as [|? ? Nq Nps].
  destruct (exists_last Nq) as (q0 & x & ->). rewrite !walks_cons, steps_snoc, filter_app, app_length.
  inversion H as [|q1 ps0 v0 v0' H' E1 E2 E3|p0 ps0 v0 v0' Hn H' E1 E2 E3]; subst.
  - assert (x = a /\ w = b) as [-> ->].
    { change [a; b] with ([a] ++ [b]) in E1. rewrite app_assoc in E1. apply app_inj_tail in E1 as [E1 ->]. apply app_inj_tail in E1 as [_ ->]. auto. }
    destruct (IH Nps _ _ H') as (d & D1 & D2). exists (S d). rewrite filter_cons, decide_True by reflexivity. cbn [filter length]. split; [rewrite D1; cbn; lia|]. rewrite D2. change (S d) with (1 + d). rewrite iter_add. reflexivity.
  - destruct (IH Nps _ _ H') as (d & D1 & D2). exists d. rewrite filter_cons, decide_False; [|intros E; injection E as -> ->; apply (Hn q0); rewrite <- app_assoc; reflexivity]. split; [rewrite D1; cbn; lia|exact D2].
Qed.
Lemma chain_walks f local : (forall m ps m', local m ps = Ok m' -> forall a b, after_steps f a b ps (entry m a b) (entry m' a b)) ->
  forall rs ps p p' a b, chain ps rs -> Forall (fun q => q <> []) ps -> length (List.last rs ps) = length ps -> ofold local p rs = Ok p' ->
  exists d, walks a b (List.last rs ps) = walks a b ps + d /\ entry p' a b = Nat.iter d f (entry p a b).
Proof.
  intros HL. induction rs as [|r rs IH]; intros ps p p' a b C N L H; [injection H as <-; exists 0; split; [symmetry; apply Nat.add_0_r|reflexivity]|].
  inversion C as [|? ? ? G C']; subst. rewrite last_cons in *. rewrite ofold_cons in H. apply obind_Ok in H as (p1 & H1 & H).
  assert (Lr : length (List.last rs r) = length r /\ length r = length ps).
  { assert (M : forall rs ps, chain ps rs -> length (List.last rs ps) <= length ps).
    { clear. induction rs as [|r rs IH]; intros ps C; [reflexivity|]. inversion C as [|? ? ? (g & S & F) C']; subst. rewrite last_cons. specialize (IH _ C').
      pose proof (sublist_length _ _ S). pose proof (Forall2_length _ _ _ F). lia. }
    specialize (M _ _ C'). destruct G as (g & S & F). pose proof (sublist_length _ _ S). pose proof (Forall2_length _ _ _ F). lia. }
  destruct Lr as [L1 L2]. pose proof (grown_all _ _ G L2) as F.
  destruct (grown_walks f a b _ _ F N _ _ (HL _ _ _ H1 a b)) as (d1 & D1 & D2).
  assert (N' : Forall (fun q => q <> []) r). { clear -F. induction F as [|q q' ps r (v & ->) F IH]; constructor; [|exact IH]. destruct q; discriminate. }
  destruct (IH r p1 p' a b C' N' L1 H) as (d2 & D3 & D4). exists (d1 + d2). split; [lia|]. rewrite iter_add, <- D2. exact D4.
Qed.
Lemma acs_edges f local op n ants p paths ants' p' : (forall m ps m', local m ps = Ok m' -> forall a b, after_steps f a b ps (entry m a b) (entry m' a b)) ->
  nrows p = n -> Forall (usable n) ants -> ant_colony_system op local ants p = Ok (paths, ants', p') -> length paths = length ants ->
  forall a b, entry p' a b = Nat.iter (walks a b paths) f (entry p a b).
Proof.
  intros HF Hr Hu H L a b. apply obind_Ok in H as (ants0 & H0 & H). rewrite Hr in H. destruct (rounds_chain _ _ _ _ _ _ _ _ _ H) as (rs & HL & HC & HO & HE).
  destruct (starts ants0 _ n ants _ H0 Hu eq_refl eq_refl) as [SL SF].
  destruct rs as [|r rs]. { subst paths. injection HO as <-. reflexivity. }
  assert (E : List.last (r :: rs) (going_on ants0) = paths) by (rewrite HE, !last_cons; reflexivity).
  assert (N : Forall (fun q : list nat => q <> []) (going_on ants0)) by (eapply Forall_impl; [exact SF|]; intros [|? ?] X; discriminate).
  destruct (chain_walks f local HF _ _ _ _ a b HC N ltac:(rewrite E; lia) HO) as (d & D1 & D2). rewrite E in D1. rewrite D2. f_equal. rewrite D1.
  assert (Z : walks a b (going_on ants0) = 0); [|lia]. clear -SF. induction SF as [|q ps Hq Hps IH]; [reflexivity|]. rewrite walks_cons, IH. destruct q as [|x [|y q]]; try discriminate Hq. reflexivity.
Qed.
Lemma walks_none a b paths : Forall (fun p => forall i, p !! i = Some a -> p !! (i + 1) <> Some b) paths -> walks a b paths = 0.
Proof.
  induction 1 as [|p ps Hp Hps IH]; [reflexivity|]. rewrite walks_cons, IH, Nat.add_0_r. clear -Hp. unfold steps. induction p as [|x p IH]; [reflexivity|]. destruct p as [|y p]; [reflexivity|].
  cbn [tail zip zip_with]. rewrite filter_cons, decide_False.
  - apply IH. intros i. exact (Hp (S i)).
  - intros E. injection E as -> ->. exact (Hp 0 eq_refl eq_refl).
Qed.
