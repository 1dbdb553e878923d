(** * Lower bounds for the makespan of feasible schedules *)
From Verif Require Export JsspSpec.
Open Scope nat_scope.

Definition sum_of {A} (f : A -> N) (l : list A) : N := foldr (fun x acc => (f x + acc)%N) 0%N l.
Lemma sum_app {A} (f : A -> N) l k : sum_of f (l ++ k) = (sum_of f l + sum_of f k)%N.
Proof. induction l as [|x l IH]; [reflexivity|]. cbn. unfold sum_of in *. rewrite IH. lia. Qed.
Lemma max_ex {A} (f : A -> N) (l : list A) : l <> [] -> exists a x b, l = a ++ x :: b /\ forall y, y ∈ l -> (f y <= f x)%N.
Proof.
  induction l as [|z l IH]; [congruence|]. intros _. destruct l as [|z' l'].
  - exists [], z, []. split; [reflexivity|]. intros y H. apply elem_of_list_singleton in H as ->. lia.
  - destruct (IH ltac:(discriminate)) as (a & x & b & E & H). destruct (N.le_gt_cases (f z) (f x)) as [L|L].
    + exists (z :: a), x, b. rewrite E. split; [reflexivity|]. intros y [->|Hy]%elem_of_cons; [exact L|]. apply H. rewrite E. exact Hy.
    + exists [], z, (z' :: l'). split; [reflexivity|]. intros y [->|Hy]%elem_of_cons; [lia|]. specialize (H y Hy). lia.
Qed.
(** Intervals that do not overlap and end by [t] have a total length of at most [t] *)
Lemma disjoint_sum {A} (st du : A -> N) : forall len (l : list A) t, length l = len -> NoDup l ->
  (forall x y, x ∈ l -> y ∈ l -> x <> y -> (st x + du x <= st y)%N \/ (st y + du y <= st x)%N) -> (forall x, x ∈ l -> (st x + du x <= t)%N) -> (sum_of du l <= t)%N.
Proof.
  induction len as [|len IH]; intros l t L Nd H Ht; [destruct l; [cbn; lia|discriminate]|].
  destruct (max_ex st l ltac:(destruct l; discriminate)) as (a & x & b & E & Hx).
  assert (Nd' : NoDup (a ++ b) /\ x ∉ a ++ b). { rewrite E, <- Permutation_middle in Nd. apply NoDup_cons in Nd as [? ?]. auto. }
  destruct Nd' as [Nd' Nx]. assert (In : forall y, y ∈ a ++ b -> y ∈ l /\ y <> x). { intros y Hy. split; [|congruence]. rewrite E. apply elem_of_app in Hy as [?|?]; apply elem_of_app; [left|right; right]; assumption. }
  assert (Hxl : x ∈ l) by (rewrite E; apply elem_of_app; right; left). assert (Es : sum_of du l = (du x + sum_of du (a ++ b))%N) by (rewrite E, !sum_app; cbn; unfold sum_of; lia). rewrite Es.
  assert (Ll : length (a ++ b) = len) by (rewrite E in L; rewrite app_length in *; cbn in L; lia). pose proof (Ht x Hxl) as Htx.
  destruct (N.eq_dec (du x) 0) as [E0|E0].
  - rewrite E0, N.add_0_l. apply IH; auto. + intros y z Hy Hz. apply H; apply In; assumption. + intros y Hy. apply Ht, In, Hy.
  - enough (sum_of du (a ++ b) <= st x)%N by lia. apply IH; auto. + intros y z Hy Hz. apply H; apply In; assumption.
    + intros y Hy. destruct (In y Hy) as [Hyl Hne]. destruct (H y x Hyl Hxl Hne) as [K|K]; [exact K|]. specialize (Hx y Hyl). lia.
Qed.

(** The tasks of a shop *)
Fixpoint tasks (j0 : nat) (jobs : shop) : list (nat * nat * (nat * N)) := match jobs with [] => [] | job :: js => imap (fun k md => (j0, k, md)) job ++ tasks (S j0) js end.
Lemma tasks_in jobs : forall j0 j k md, (j, k, md) ∈ tasks j0 jobs -> j0 <= j /\ exists job, jobs !! (j - j0) = Some job /\ job !! k = Some md.
Proof.
  induction jobs as [|job js IH]; intros j0 j k md H; [apply elem_of_nil in H; tauto|]. cbn [tasks] in H. apply elem_of_app in H as [H|H].
  - apply elem_of_lookup_imap in H as (i & x & E & Hx). injection E as -> -> ->. split; [lia|]. rewrite Nat.sub_diag. exists job. auto.
  - apply IH in H as [Hj (job' & H1 & H2)]. split; [lia|]. replace (j - j0) with (S (j - S j0)) by lia. exists job'. auto.
Qed.
Lemma tasks_nodup jobs : forall j0, NoDup (tasks j0 jobs).
Proof.
  induction jobs as [|job js IH]; intros j0; [constructor|]. cbn [tasks]. apply NoDup_app. split; [|split; [|apply IH]].
  - apply NoDup_alt. intros i i' x Hi Hi'. rewrite list_lookup_imap in Hi, Hi'. destruct (job !! i); [|discriminate]. destruct (job !! i'); [|discriminate]. cbn in *. congruence.
  - intros [[j k] md] H K. apply elem_of_lookup_imap in H as (i & x & E & Hx). injection E as -> -> ->. apply tasks_in in K as [K _]. lia.
Qed.
Lemma tasks_concat jobs : forall j0, map snd (tasks j0 jobs) = concat jobs.
Proof.
  induction jobs as [|job js IH]; intros j0; [reflexivity|]. cbn [tasks concat]. rewrite map_app, IH. f_equal. change (map snd) with (fmap (M := list) (A := nat * nat * (nat * N)) snd). rewrite fmap_imap.
  rewrite (imap_ext _ (fun _ x => x)) by reflexivity. clear. induction job as [|md job IH]; [reflexivity|]. cbn. f_equal. exact IH.
Qed.
Lemma sum_filter {A} (P : A -> Prop) `{forall x, Decision (P x)} (f : A -> N) l : sum_of f (filter P l) = sum_of (fun x => if decide (P x) then f x else 0%N) l.
Proof. induction l as [|x l IH]; [reflexivity|]. rewrite filter_cons. cbn. destruct (decide (P x)); cbn; unfold sum_of in *; rewrite IH; lia. Qed.
Lemma sum_map {A B} (g : A -> B) (f : B -> N) l : sum_of f (map g l) = sum_of (fun x => f (g x)) l.
Proof. induction l as [|x l IH]; [reflexivity|]. cbn. unfold sum_of in *. rewrite IH. reflexivity. Qed.

Section Bounds.
Context (jobs : shop) (start : nat -> nat -> N) (t : N) (F : feasible jobs start) (M : has_makespan jobs start t).
Theorem machine_bound m : (machine_work jobs m <= t)%N.
Proof.
  set (l := filter (fun x : nat * nat * (nat * N) => x.2.1 = m) (tasks 0 jobs)).
  assert (T : forall j k md, (j, k, md) ∈ l -> task jobs j k m md.2).
  { intros j k md H. apply elem_of_list_filter in H as [E H]. apply tasks_in in H as [_ (job & H1 & H2)]. rewrite Nat.sub_0_r in H1. exists job. cbn in E. destruct md as [m' d]. cbn in *. subst. auto. }
  assert (E : machine_work jobs m = sum_of (fun x : nat * nat * (nat * N) => x.2.2) l). { unfold l. rewrite sum_filter. unfold machine_work. rewrite <- (tasks_concat jobs 0). exact (sum_map snd _ (tasks 0 jobs)). }
  rewrite E. apply (disjoint_sum (fun x => start x.1.1 x.1.2) (fun x => x.2.2) (length l) l t eq_refl).
  - apply NoDup_filter, tasks_nodup.
  - intros [[j k] md] [[j' k'] md'] H H' Hne. apply (proj2 F j k j' k' m md.2 md'.2 (T _ _ _ H) (T _ _ _ H')). intros [= -> ->]. apply Hne. f_equal.
    apply elem_of_list_filter in H as [_ H], H' as [_ H']. apply tasks_in in H as [_ (job & H1 & H2)], H' as [_ (job' & H1' & H2')]. congruence.
  - intros [[j k] md] H. exact (proj1 M j k m md.2 (T _ _ _ H)).
Qed.
Theorem job_bound job : job ∈ jobs -> (job_work job <= t)%N.
Proof.
  intros [j Hj]%elem_of_list_lookup. assert (G : forall rest k pre, job = pre ++ rest -> k = length pre -> (forall m d, rest !! 0 = Some (m, d) -> (start j k + job_work rest <= t)%N)).
  { induction rest as [|[m0 d0] rest IH]; intros k pre E Ek m d Hr; [discriminate|]. injection Hr as -> ->. assert (Tk : task jobs j k m d). { exists job. split; [exact Hj|]. rewrite E, lookup_app_r by lia. rewrite Ek, Nat.sub_diag. reflexivity. }
    destruct rest as [|[m' d'] rest]; [cbn; pose proof (proj1 M j k m d Tk); lia|].
    assert (Tk' : task jobs j (S k) m' d'). { exists job. split; [exact Hj|]. rewrite E, lookup_app_r by lia. replace (S k - length pre) with 1 by lia. reflexivity. }
    pose proof (proj1 F j k m d m' d' Tk Tk'). specialize (IH (S k) (pre ++ [(m, d)]) ltac:(rewrite <- app_assoc; exact E) ltac:(rewrite app_length; cbn; lia) m' d' eq_refl). cbn [job_work foldr] in *. unfold job_work in IH. cbn [snd foldr] in *. lia. }
  destruct job as [|[m d] rest]; [cbn; lia|]. specialize (G ((m, d) :: rest) 0 [] eq_refl eq_refl m d eq_refl). lia.
Qed.
End Bounds.
