(** * Random number generators

    The state of an RNG is an infinite stream of raw natural numbers; quantifying over all
    streams covers every outcome the `rand` crate can produce.  The functions of `rand`
    (0.8) are modelled by their documented contract: they consume raw values and return
    an arbitrary value of the documented range, or panic in the documented cases. *)
From Verif Require Export F64.
Open Scope nat_scope.

Definition rng := nat -> N.
(** A stream for the examples: the given values, then zeros. *)
Definition rng_of (l : list N) : rng := fun n => default 0%N (l !! n).
Definition rng_tail (r : rng) : rng := fun n => r (S n).
Definition draw (r : rng) : N * rng := (r 0, rng_tail r).

(** [rng.gen_range(lo..hi)] on usize; panics on an empty range. *)
Definition gen_range (lo hi : nat) (r : rng) : outcome (nat * rng) :=
  if decide (lo < hi) then Ok (lo + N.to_nat (r 0 mod N.of_nat (hi - lo)), rng_tail r) else Panic.

(** [rng.gen::<f64>()]: k * 2^-53, 0 <= k < 2^53. *)
Definition gen_f64 (r : rng) : f64 * rng := (f_unit 53 (r 0 mod 2 ^ 53), rng_tail r).
(** [Uniform::new(0.0, 1.0).sample(rng)] and [rng.gen_range(0.0..1.0)]: k * 2^-52, 0 <= k < 2^52. *)
Definition uni_f64 (r : rng) : f64 * rng := (f_unit 52 (r 0 mod 2 ^ 52), rng_tail r).
(** [rng.gen::<bool>()] *)
Definition gen_bool (r : rng) : bool * rng := (N.odd (r 0), rng_tail r).

(** [n] consecutive draws. *)
Fixpoint repeatM {A} (n : nat) (f : rng -> A * rng) (r : rng) : list A * rng :=
  match n with
  | 0 => ([], r)
  | S n => let '(x, r1) := f r in let '(xs, r2) := repeatM n f r1 in (x :: xs, r2)
  end.
(** The RNG after [n] draws. *)
Fixpoint rng_skip (n : nat) (r : rng) : rng :=
  match n with 0 => r | S n => rng_skip n (rng_tail r) end.

(** [slice.shuffle(rng)] (rand 0.8 seq/mod.rs): for i in (1..len).rev() { swap(i, gen_range(0..i+1)) }. *)
Fixpoint shuffle_from {A} (i : nat) (l : list A) (r : rng) : outcome (list A * rng) :=
  match i with
  | 0 => Ok (l, r)
  | S i' => '(j, r1) ← gen_range 0 (S i + 0) r; l' ← swap i j l; shuffle_from i' l' r1
  end.
Definition shuffle {A} (l : list A) (r : rng) : outcome (list A * rng) :=
  shuffle_from (length l - 1) l r.

(** [rand::seq::index::sample(rng, length, amount)] (and [choose_multiple]'s indices):
    an arbitrary sequence of distinct indices; panics when [amount > length]. *)
Definition sample_indices (len amount : nat) (r : rng) : outcome (list nat * rng) :=
  if decide (amount <= len) then
    '(l, r') ← shuffle (seq 0 len) r; Ok (take amount l, r')
  else Panic.

(** What cloning the operator's RNG does to the operator's own RNG: a value-type RNG is not
    advanced by draws from its clone; a ThreadRng clone is a handle to the same generator. *)
Inductive rng_kind := ValueRng | SharedRng.
Definition after_clone (k : rng_kind) (own advanced : rng) : rng :=
  match k with ValueRng => own | SharedRng => advanced end.

(** [n] consecutive draws that may panic. *)
Fixpoint repeatO {A} (n : nat) (f : rng -> outcome (A * rng)) (r : rng) : outcome (list A * rng) :=
  match n with
  | 0 => Ok ([], r)
  | S n => '(x, r1) ← f r; '(xs, r2) ← repeatO n f r1; Ok (x :: xs, r2)
  end.

(** Any f64, from its 64-bit pattern (all NaN payloads coincide). *)
Definition f_of_bits (n : N) : f64 :=
  let s := N.odd (n / 2 ^ 63) in
  let e := ((n / 2 ^ 52) mod 2048)%N in
  let m := (n mod 2 ^ 52)%N in
  match e with
  | 0%N => match m with N0 => S754_zero s | Npos p => S754_finite s p (-1074) end
  | 2047%N => match m with N0 => S754_infinity s | Npos _ => S754_nan end
  | _ => match (m + 2 ^ 52)%N with N0 => S754_nan | Npos p => S754_finite s p (Z.of_N e - 1075) end
  end.
(** [rng.gen_range(lo..=hi)] on f64: panics unless lo <= hi and both are finite (rand 0.8
    UniformFloat::sample_single_inclusive), otherwise any f64 of the closed interval. *)
Definition gen_range_f64 (lo hi : f64) (r : rng) : outcome (f64 * rng) :=
  if fle lo hi && fgt hi (S754_infinity true) && flt lo finf && fgt lo (S754_infinity true) && flt hi finf then
    let v := f_of_bits (r 0) in
    Ok (if fle lo v && fle v hi then v else lo, rng_tail r)
  else Panic.

(** ** Properties of the contract *)

Lemma gen_range_Ok lo hi r v r' :
  gen_range lo hi r = Ok (v, r') -> lo <= v < hi.
Proof.
  unfold gen_range; case_decide; [|discriminate].
  intros [= <- _]. pose proof (N.mod_lt (r 0) (N.of_nat (hi - lo)) ltac:(lia)) as Hm.
  revert Hm. generalize (N.modulo (r 0) (N.of_nat (hi - lo))). intros; lia.
Qed.
Lemma gen_range_is_Ok lo hi r : lo < hi -> exists v, gen_range lo hi r = Ok (v, rng_tail r) /\ lo <= v < hi.
Proof.
  intros H. unfold gen_range; rewrite decide_True by exact H. eexists; split; [reflexivity|].
  pose proof (N.mod_lt (r 0) (N.of_nat (hi - lo)) ltac:(lia)) as Hm.
  revert Hm. generalize (N.modulo (r 0) (N.of_nat (hi - lo))). intros; lia.
Qed.
(** Every value of the range is a possible outcome. *)
Lemma gen_range_surj lo hi v rest : lo <= v < hi ->
  exists r, gen_range lo hi r = Ok (v, rest).
Proof.
  intros H. exists (fun n => match n with 0 => N.of_nat (v - lo) | S n => rest n end).
  unfold gen_range. rewrite decide_True by lia. rewrite N.mod_small by lia.
  rewrite Nat2N.id. replace (lo + (v - lo)) with v by lia. reflexivity.
Qed.
Lemma gen_range_empty lo hi r : hi <= lo -> gen_range lo hi r = Panic.
Proof. intros; unfold gen_range; rewrite decide_False by lia; reflexivity. Qed.

Lemma gen_f64_range r u r' : gen_f64 r = (u, r') -> fle f0 u = true /\ flt u f1 = true.
Proof. intros [= <- _]. apply f_unit_range. apply N.mod_lt; discriminate. Qed.
Lemma uni_f64_range r u r' : uni_f64 r = (u, r') -> fle f0 u = true /\ flt u f1 = true.
Proof. intros [= <- _]. apply f_unit_range. apply N.mod_lt; discriminate. Qed.

Lemma repeatM_length {A} n (f : rng -> A * rng) r l r' : repeatM n f r = (l, r') -> length l = n.
Proof.
  revert r l r'; induction n as [|n IH]; intros r l r' H; cbn in H; [injection H as <- <-; reflexivity|].
  destruct (f r) as [x r1]. destruct (repeatM n f r1) as [xs r2] eqn:E.
  injection H as <- <-. cbn. f_equal. eapply IH; eauto.
Qed.

Lemma shuffle_from_perm {A} i (l : list A) r l' r' :
  shuffle_from i l r = Ok (l', r') -> l' ≡ₚ l.
Proof.
  revert l r; induction i as [|i IH]; intros l r H; cbn [shuffle_from] in H.
  - injection H as <- <-; reflexivity.
  - apply obind_Ok in H as ([j r1] & H1 & H). apply obind_Ok in H as (l1 & H2 & H).
    apply IH in H. rewrite H. apply swap_perm in H2. exact H2.
Qed.
Lemma shuffle_perm {A} (l : list A) r l' r' : shuffle l r = Ok (l', r') -> l' ≡ₚ l.
Proof. apply shuffle_from_perm. Qed.

Lemma shuffle_from_ok {A} i (l : list A) r : (i = 0 \/ i < length l) ->
  exists l' r', shuffle_from i l r = Ok (l', r').
Proof.
  revert l r; induction i as [|i IH]; intros l r H; cbn [shuffle_from]; [eauto|].
  destruct H as [H|H]; [discriminate|].
  destruct (gen_range_is_Ok 0 (S (S i) + 0) r) as (j & Hj & Hb); [lia|]. rewrite Hj. cbn.
  destruct (proj2 (swap_ok_iff (S i) j l)) as [l1 H1]; [lia|]. rewrite H1. cbn.
  apply IH. right. rewrite (swap_length _ _ _ _ H1). lia.
Qed.
(** shuffle never panics *)
Lemma shuffle_ok {A} (l : list A) r : exists l' r', shuffle l r = Ok (l', r').
Proof. apply shuffle_from_ok. destruct l; cbn; [left; reflexivity|right; lia]. Qed.

Lemma sample_indices_Ok len amount r l r' :
  sample_indices len amount r = Ok (l, r') ->
  amount <= len /\ length l = amount /\ NoDup l /\ Forall (fun i => i < len) l.
Proof.
  unfold sample_indices; case_decide as Hle; [|discriminate].
  intros H. apply obind_Ok in H as ([l0 r0] & H0 & H). injection H as <- <-.
  apply shuffle_perm in H0.
  assert (Hl : length l0 = len) by (rewrite H0, seq_length; reflexivity).
  split; [exact Hle|]. split; [rewrite take_length; lia|].
  split.
  - assert (Hnd : NoDup l0) by (rewrite H0; apply NoDup_seq).
    rewrite <- (take_drop amount l0) in Hnd. apply NoDup_app in Hnd. tauto.
  - apply Forall_forall. intros i Hi. assert (i ∈ l0) by (apply elem_of_take in Hi as (? & ? & ?); apply elem_of_list_lookup; eauto).
    rewrite H0 in *. apply elem_of_seq in H. lia.
Qed.
Lemma sample_indices_ok len amount r : amount <= len -> exists l r', sample_indices len amount r = Ok (l, r').
Proof.
  intros H. unfold sample_indices. rewrite decide_True by exact H.
  destruct (shuffle_ok (seq 0 len) r) as (l & r' & ->). cbn. eauto.
Qed.
Lemma sample_indices_panic len amount r : len < amount -> sample_indices len amount r = Panic.
Proof. intros H. unfold sample_indices. rewrite decide_False by lia. reflexivity. Qed.
