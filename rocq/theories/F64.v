(** * IEEE-754 binary64 numbers (Rust f64) *)
From Coq.Floats Require Export SpecFloat.
From Verif Require Export Base.
From stdpp Require Export base list numbers list_numbers.
Open Scope Z_scope.

(** f64 is the standard library's executable IEEE-754 specification with 53 bits of
    precision; NaN payloads are not represented. *)
Definition f64 := spec_float.
Definition fadd : f64 -> f64 -> f64 := SFadd 53 1024.
Definition fsub : f64 -> f64 -> f64 := SFsub 53 1024.
Definition fmul : f64 -> f64 -> f64 := SFmul 53 1024.
Definition fdiv : f64 -> f64 -> f64 := SFdiv 53 1024.
Definition fsqrt : f64 -> f64 := SFsqrt 53 1024.
Definition fneg : f64 -> f64 := SFopp.
Definition fabs : f64 -> f64 := SFabs.

(** [a.partial_cmp(&b)] and the comparison operators derived from it (false on NaN). *)
Definition fcmp : f64 -> f64 -> option comparison := SFcompare.
Definition flt (a b : f64) : bool := SFltb a b.
Definition fle (a b : f64) : bool := SFleb a b.
Definition fgt (a b : f64) : bool := flt b a.
Definition fge (a b : f64) : bool := fle b a.
Definition feq (a b : f64) : bool := SFeqb a b.
Definition is_nan (a : f64) : bool := match a with S754_nan => true | _ => false end.

(** Integer constants and [usize as f64] (round to nearest). *)
Definition f_of_Z (z : Z) : f64 := binary_normalize 53 1024 z 0 false.
Definition f_of_nat (n : nat) : f64 := f_of_Z (Z.of_nat n).
Definition f0 : f64 := S754_zero false.
Definition f1 : f64 := S754_finite false 4503599627370496 (-52).
Definition fhalf : f64 := S754_finite false 4503599627370496 (-53).
Definition finf : f64 := S754_infinity false.
(** [f64::MAX], [f64::MIN] *)
Definition fmax : f64 := S754_finite false 9007199254740991 971.
Definition fmin : f64 := S754_finite true 9007199254740991 971.

(** [x as usize] on a 64-bit target: truncate toward zero, saturate, NaN -> 0. *)
Definition f_to_usize (x : f64) : N :=
  match x with
  | S754_finite false m e =>
      N.min (2 ^ 64 - 1)
        (match e with
         | Z0 => Npos m
         | Zpos p => Npos m * 2 ^ Npos p
         | Zneg p => Npos m / 2 ^ Npos p
         end)%N
  | S754_infinity false => (2 ^ 64 - 1)%N
  | _ => 0%N
  end.

(** [f64::max(self, other)]: a NaN argument is ignored. *)
Definition f_max (a b : f64) : f64 :=
  if is_nan a then b else if is_nan b then a else if flt a b then b else a.
Definition f_min (a b : f64) : f64 :=
  if is_nan a then b else if is_nan b then a else if flt b a then b else a.

(** ** Order structure: a key into lexicographically ordered triples of integers. *)
Definition fkey (x : f64) : Z * Z * Z :=
  match x with
  | S754_zero _ => (0, 0, 0)
  | S754_infinity false => (2, 0, 0)
  | S754_infinity true => (-2, 0, 0)
  | S754_nan => (3, 0, 0)
  | S754_finite false m e => (1, e, Z.pos m)
  | S754_finite true m e => (-1, - e, - Z.pos m)
  end.
Definition keylt (a b : Z * Z * Z) : Prop :=
  let '(a1, a2, a3) := a in let '(b1, b2, b3) := b in
  a1 < b1 \/ (a1 = b1 /\ (a2 < b2 \/ (a2 = b2 /\ a3 < b3))).

Lemma fcmp_key x y :
  match fcmp x y with
  | None => is_nan x = true \/ is_nan y = true
  | Some Lt => is_nan x = false /\ is_nan y = false /\ keylt (fkey x) (fkey y)
  | Some Gt => is_nan x = false /\ is_nan y = false /\ keylt (fkey y) (fkey x)
  | Some Eq => is_nan x = false /\ is_nan y = false /\ fkey x = fkey y
  end.
Proof.
  unfold fcmp.
  destruct x as [s1|s1| |s1 m1 e1], y as [s2|s2| |s2 m2 e2];
    try destruct s1; try destruct s2; cbn; try tauto;
    try (split; [reflexivity|split; [reflexivity|cbn; lia || reflexivity]]).
  - destruct (Z.compare_spec e1 e2); cbn.
    + rewrite <- Pos.compare_antisym. subst.
      change (Pos.compare_cont Eq m2 m1) with (m2 ?= m1)%positive.
      destruct (Pos.compare_spec m2 m1); subst;
      repeat (split; [reflexivity|]); try lia; reflexivity.
    + repeat (split; [reflexivity|]); lia.
    + repeat (split; [reflexivity|]); lia.
  - destruct (Z.compare_spec e1 e2); cbn.
    + subst. change (Pos.compare_cont Eq m1 m2) with (m1 ?= m2)%positive.
      destruct (Pos.compare_spec m1 m2); subst;
      repeat (split; [reflexivity|]); try lia; reflexivity.
    + repeat (split; [reflexivity|]); lia.
    + repeat (split; [reflexivity|]); lia.
Qed.

Lemma flt_key x y :
  flt x y = true <-> is_nan x = false /\ is_nan y = false /\ keylt (fkey x) (fkey y).
Proof.
  pose proof (fcmp_key x y) as H. unfold flt, SFltb, fcmp in *.
  destruct (SFcompare x y) as [[]|]; split; intros H'; try discriminate; auto.
  - destruct H as (_ & _ & E), H' as (_ & _ & H'). rewrite E in H'.
    destruct (fkey y) as [[? ?] ?]; cbn in H'; lia.
  - destruct H as (_ & _ & E), H' as (_ & _ & H').
    destruct (fkey x) as [[? ?] ?], (fkey y) as [[? ?] ?]; cbn in *; lia.
  - destruct H' as (? & ? & ?), H; congruence.
Qed.

Lemma fle_key x y :
  fle x y = true <-> is_nan x = false /\ is_nan y = false /\ ~ keylt (fkey y) (fkey x).
Proof.
  pose proof (fcmp_key x y) as H. unfold fle, SFleb, fcmp in *.
  destruct (SFcompare x y) as [[]|]; split; intros H'; try discriminate; auto.
  - destruct H as (? & ? & E). rewrite E. repeat split; auto.
    destruct (fkey y) as [[? ?] ?]; cbn; lia.
  - destruct H as (? & ? & E). repeat split; auto.
    destruct (fkey x) as [[? ?] ?], (fkey y) as [[? ?] ?]; cbn in *; lia.
  - destruct H as (_ & _ & E), H' as (_ & _ & H'). tauto.
  - destruct H' as (? & ? & ?), H; congruence.
Qed.

Lemma feq_key x y :
  feq x y = true <-> is_nan x = false /\ is_nan y = false /\ fkey x = fkey y.
Proof.
  pose proof (fcmp_key x y) as H. unfold feq, SFeqb, fcmp in *.
  destruct (SFcompare x y) as [[]|]; split; intros H'; try discriminate; auto.
  - destruct H as (_ & _ & E), H' as (_ & _ & H').
    destruct (fkey x) as [[? ?] ?], (fkey y) as [[? ?] ?]; cbn in *. injection H' as -> -> ->. lia.
  - destruct H as (_ & _ & E), H' as (_ & _ & H').
    destruct (fkey x) as [[? ?] ?], (fkey y) as [[? ?] ?]; cbn in *. injection H' as -> -> ->. lia.
  - destruct H' as (? & ? & ?), H; congruence.
Qed.

Ltac fkeys :=
  repeat match goal with
  | H : flt _ _ = true |- _ => apply flt_key in H as (? & ? & H)
  | H : fle _ _ = true |- _ => apply fle_key in H as (? & ? & H)
  | H : feq _ _ = true |- _ => apply feq_key in H as (? & ? & H)
  end.
Ltac fkeyd :=
  repeat match goal with
  | H : context [fkey ?x] |- _ =>
      let k := fresh "k" in set (k := fkey x) in *; clearbody k; destruct k as [[? ?] ?]
  | |- context [fkey ?x] =>
      let k := fresh "k" in set (k := fkey x) in *; clearbody k; destruct k as [[? ?] ?]
  end; cbn [keylt] in *.

Lemma fle_refl x : is_nan x = false -> fle x x = true.
Proof. intros H. apply fle_key. repeat split; auto. fkeyd; lia. Qed.
Lemma fle_trans x y z : fle x y = true -> fle y z = true -> fle x z = true.
Proof. intros. fkeys. apply fle_key; repeat split; auto. fkeyd; lia. Qed.
Lemma flt_trans x y z : flt x y = true -> flt y z = true -> flt x z = true.
Proof. intros. fkeys. apply flt_key; repeat split; auto. fkeyd; lia. Qed.
Lemma flt_le_trans x y z : flt x y = true -> fle y z = true -> flt x z = true.
Proof. intros. fkeys. apply flt_key; repeat split; auto. fkeyd; lia. Qed.
Lemma fle_lt_trans x y z : fle x y = true -> flt y z = true -> flt x z = true.
Proof. intros. fkeys. apply flt_key; repeat split; auto. fkeyd; lia. Qed.
Lemma flt_le x y : flt x y = true -> fle x y = true.
Proof. intros. fkeys. apply fle_key; repeat split; auto. fkeyd; lia. Qed.
Lemma flt_irrefl x : flt x x = false.
Proof. destruct (flt x x) eqn:E; [|reflexivity]. fkeys. fkeyd; lia. Qed.
Lemma flt_asym x y : flt x y = true -> flt y x = false.
Proof. intros H. destruct (flt y x) eqn:E; [|reflexivity]. fkeys. fkeyd; lia. Qed.
Lemma fle_total x y : is_nan x = false -> is_nan y = false -> fle x y = true \/ fle y x = true.
Proof.
  intros Hx Hy. destruct (fle x y) eqn:E; [auto|right]. apply fle_key. repeat split; auto.
  intros Hk. assert (fle x y = true); [|congruence]. apply fle_key. repeat split; auto. fkeyd; lia.
Qed.
Lemma keylt_dec a b : {keylt a b} + {~ keylt a b}.
Proof.
  destruct a as [[a1 a2] a3], b as [[b1 b2] b3]; cbn.
  destruct (Z_lt_dec a1 b1); [left; lia|].
  destruct (Z.eq_dec a1 b1); [|right; lia].
  destruct (Z_lt_dec a2 b2); [left; lia|].
  destruct (Z.eq_dec a2 b2); [|right; lia].
  destruct (Z_lt_dec a3 b3); [left; lia|right; lia].
Qed.
Lemma flt_fle_neg x y : is_nan x = false -> is_nan y = false -> flt x y = negb (fle y x).
Proof.
  intros Hx Hy. destruct (fle y x) eqn:E; cbn.
  - destruct (flt x y) eqn:E'; [|reflexivity]. fkeys. fkeyd; lia.
  - apply flt_key. repeat split; auto.
    destruct (keylt_dec (fkey x) (fkey y)); [auto|].
    exfalso. assert (fle y x = true); [|congruence]. apply fle_key; auto.
Qed.
Lemma flt_nan_l x y : flt x y = true -> is_nan x = false.
Proof. intros; fkeys; auto. Qed.
Lemma flt_nan_r x y : flt x y = true -> is_nan y = false.
Proof. intros; fkeys; auto. Qed.
Lemma fle_nan_l x y : fle x y = true -> is_nan x = false.
Proof. intros; fkeys; auto. Qed.
Lemma fle_nan_r x y : fle x y = true -> is_nan y = false.
Proof. intros; fkeys; auto. Qed.
Lemma not_flt_fle x y : is_nan x = false -> is_nan y = false -> flt x y = false -> fle y x = true.
Proof. intros Hx Hy H. rewrite flt_fle_neg in H by auto. destruct (fle y x); auto. Qed.
Lemma not_fle_flt x y : is_nan x = false -> is_nan y = false -> fle x y = false -> flt y x = true.
Proof. intros Hx Hy H. rewrite flt_fle_neg by auto. rewrite H; reflexivity. Qed.
Lemma fcmp_nan x y : fcmp x y = None <-> is_nan x = true \/ is_nan y = true.
Proof.
  pose proof (fcmp_key x y) as H. destruct (fcmp x y) as [[]|]; split; intros H'; auto; try discriminate.
  all: destruct H as (Ha & Hb & _); rewrite Ha, Hb in H'; destruct H'; discriminate.
Qed.

(** ** Unit draws, exactly representable. *)

(** [k * 2^-(w)] for [0 <= k < 2^w], [w <= 53], with a normalised 53-bit mantissa. *)
Definition f_unit (w : N) (k : N) : f64 :=
  match k with
  | N0 => S754_zero false
  | Npos p =>
      let d := Z.pos (digits2_pos p) in
      S754_finite false (Z.to_pos (Z.pos p * 2 ^ (53 - d))) (d - 53 - Z.of_N w)
  end.

Lemma digits2_pos_bound p w : (Z.pos p < 2 ^ w)%Z -> Z.pos (digits2_pos p) <= w.
Proof.
  revert w; induction p as [p IH|p IH|]; intros w H; cbn [digits2_pos].
  - assert (0 <= w) by (destruct (Z_lt_dec w 0); [rewrite Z.pow_neg_r in H by lia; lia|lia]).
    assert (w <> 0) by (intros ->; cbn in H; lia).
    replace w with (Z.succ (w - 1)) in H by lia. rewrite Z.pow_succ_r in H by lia.
    specialize (IH (w - 1)). lia.
  - assert (0 <= w) by (destruct (Z_lt_dec w 0); [rewrite Z.pow_neg_r in H by lia; lia|lia]).
    assert (w <> 0) by (intros ->; cbn in H; lia).
    replace w with (Z.succ (w - 1)) in H by lia. rewrite Z.pow_succ_r in H by lia.
    specialize (IH (w - 1)). lia.
  - assert (0 <= w) by (destruct (Z_lt_dec w 0); [rewrite Z.pow_neg_r in H by lia; lia|lia]).
    destruct (Z.eq_dec w 0) as [->|]; [cbn in H; lia|lia].
Qed.

Lemma f_unit_range w k : (k < 2 ^ w)%N ->
  fle f0 (f_unit w k) = true /\ flt (f_unit w k) f1 = true.
Proof.
  intros H. destruct k as [|p]; [split; reflexivity|].
  unfold f_unit, fle, flt, SFleb, SFltb, f0, f1. cbn [SFcompare]. split; [reflexivity|].
  assert (Z.pos p < 2 ^ Z.of_N w)%Z by (apply N2Z.inj_lt in H; rewrite N2Z.inj_pow in H; exact H).
  pose proof (digits2_pos_bound p (Z.of_N w) ltac:(auto)).
  destruct (Z.compare_spec (Z.pos (digits2_pos p) - 53 - Z.of_N w) (-52)); [lia|reflexivity|lia].
Qed.
