(** * Property theorems: formulas of the remaining test functions (C117) *)
From Coq Require Import Lra Lia Psatz.
From Verif Require Import TfSpec TfFormula5Proofs.
Open Scope R_scope.

(** As in PropsTfFormula: [value f x v] says that f, computed over the real numbers and called with x, returns v. *)

(** ** C117: what the functions computing sums compute *)
(** Sums of a fixed number of terms; e.g. the Biggs functions subtract 5 e^i where the published ones add 5 e^(-i). *)
Theorem C117_exponential_sums :
  forall x1 x2 x3 x4 x5 x6 : R,
  let e i t := exp (- (1 / 10) * INR i * t) in
  value biggs_exp2 [x1; x2] (Sum 1 10 (fun i => (e i x1 - 5 * e i x2 - e i 1 - 5 * exp (INR i)) ^ 2)) /\
  value biggs_exp3 [x1; x2; x3] (Sum 1 10 (fun i => (e i x1 - x3 * e i x2 - e i 1 - 5 * exp (INR i)) ^ 2)) /\
  value biggs_exp4 [x1; x2; x3; x4] (Sum 1 10 (fun i => (x3 * e i x1 - x4 * e i x2 - e i 1 - 5 * exp (INR i)) ^ 2)) /\
  value biggs_exp5 [x1; x2; x3; x4; x5] (Sum 1 10 (fun i => (x3 * e i x1 - x4 * e i x2 - e i 1 - 5 * exp (INR i + 3 * exp (- (1 / 10) * x5)) + 3 * e i 4) ^ 2)) /\
  value biggs_exp6 [x1; x2; x3; x4; x5; x6] (Sum 1 11 (fun i => (x3 * e i x1 - x4 * e i x2 - e i 1 - 5 * exp (INR i + x6 * exp (- (1 / 10) * x5)) + 3 * e i 4) ^ 2)) /\
  value box_betts [x1; x2; x3] (Sum 0 2 (fun i => (e (i + 1)%nat x1 + e (i + 1)%nat x2 + exp (- (1 / 10) * INR i * x3 - exp (- INR (i + 1)))) ^ 2)) /\
  value exp2 [x1; x2] (Sum 1 9 (fun i => (e i x1 - 5 * e i x2 - 1 + 5 * exp (- INR i)) ^ 2)).
Proof.
  intros x1 x2 x3 x4 x5 x6 e.
  assert (E1 : forall i, e i 1 = exp (- (1 / 10) * INR i)) by (intros i; unfold e; f_equal; lra).
  assert (E4 : forall i, e i 4 = exp (- (4 / 10) * INR i)) by (intros i; unfold e; f_equal; lra).
  repeat split; (eapply value_eq;
    [first [exact (biggs_exp2_formula _ _) | exact (biggs_exp3_formula _ _ _) | exact (biggs_exp4_formula _ _ _ _) | exact (biggs_exp5_formula _ _ _ _ _) | exact (biggs_exp6_formula _ _ _ _ _ _) | exact (box_betts_formula _ _ _) | exact (exp2_formula _ _)]
    |apply Sum_ext; intros i _; rewrite ?E1, ?E4; unfold e]); try reflexivity.
  - replace (x3 * (- (1 / 10) * INR i)) with (- (1 / 10) * INR i * x3) by ring. reflexivity.
  - replace (- INR i * x1 / 10) with (- (1 / 10) * INR i * x1) by lra. replace (- INR i * x2 / 10) with (- (1 / 10) * INR i * x2) by lra. reflexivity.
Qed.
Print Assumptions C117_exponential_sums.

(** Other functions of a fixed number of variables, where they are defined. The product that paviani should subtract is 0: it starts from 0. *)
Theorem C117_fixed_sums :
  (forall x1 x2 x3, let q i := INR (16 - i) * x2 + Rmin (INR i) (INR (16 - i)) * x3 in
   (forall i, (i <= 14)%nat -> q i <> 0) -> value brad [x1; x2; x3] (Sum 0 14 (fun i => ((14 / 100 - x1 - INR i) / q i) ^ 2))) /\
  (forall x1 x2 x3 x4 x5, 0 < x2 -> value devilliers_glasser2 [x1; x2; x3; x4; x5] (Sum 1 24 (fun i => let t := 1 / 10 * INR (i - 1) in
     (x1 * Rpower x2 t * tanh (x3 * t + sin (x4 * t)) * cos (t * exp x5)
      - 5381 / 100 * Rpower (127 / 100) t * tanh (3012 / 1000 * t + sin (213 / 100 * t)) * cos (exp (507 / 1000) * t)) ^ 2))) /\
  (forall x, length x = 10%nat -> (forall i, (1 <= i <= 10)%nat -> 2 < coord x i < 10) ->
     value paviani x (Sum 1 10 (fun i => ln (coord x i - 2) ^ 2 + ln (10 - coord x i) ^ 2))) /\
  (forall x1 x2, cos x1 <> 0 -> cos x2 <> 0 -> x1 <> 0 \/ x2 <> 0 ->
     value pen_holder [x1; x2] (- exp (/ Rabs (cos x1 * cos x2 * exp (Rabs (1 - Rpower (x1 ^ 2 + x2 ^ 2) (1 / 2 / PI))))))) /\
  (forall x1 x2, x1 <> 1 -> x2 <> 1 -> let t a := (a - 1) / (8 / 10) in
     value ripple1 [x1; x2] (- (sin (5 * PI * x1) ^ 6 + 1 / 10 * cos (500 * PI * x1) ^ 2) / (2 * t x1 ^ 2) ^ 2 + - (sin (5 * PI * x2) ^ 6 + 1 / 10 * cos (500 * PI * x2) ^ 2) / (2 * t x2 ^ 2) ^ 2) /\
     value ripple25 [x1; x2] (- sin (5 * PI * x1) ^ 6 / (2 * t x1 ^ 2) ^ 2 + - sin (5 * PI * x2) ^ 6 / (2 * t x2 ^ 2) ^ 2)).
Proof.
  exact (conj brad_formula (conj devilliers_glasser2_formula (conj paviani_formula (conj pen_holder_formula (fun x1 x2 H1 H2 => conj (ripple1_formula x1 x2 H1 H2) (ripple25_formula x1 x2 H1 H2)))))).
Qed.
Print Assumptions C117_fixed_sums.

(** Functions of any number of coordinates, counted from 1 *)
Theorem C117_any_dimension :
  forall x : list R, let d := length x in let X := coord x in
  ((2 <= d)%nat -> value deb1 x (- (1 / INR (d - 1)) * Sum 1 d (fun i => sin (5 * PI * X i) ^ 6))) /\
  ((2 <= d)%nat -> (forall i, (1 <= i <= d)%nat -> 0 < X i) -> value deb3 x (- (1 / INR (d - 1)) * Sum 1 d (fun i => sin (5 * PI * (Rpower (X i) (3 / 4) - 5 / 100)) ^ 6))) /\
  ((1 <= d)%nat -> (forall i, (1 <= i <= d)%nat -> X i <> 0) ->
     value brown x (Sum 1 (d - 1) (fun i => Rpower (X i ^ 2) (X (i + 1)%nat ^ 2 + 1) + Rpower (X (i + 1)%nat ^ 2) (X i ^ 2 + 1)))) /\
  ((3 <= d)%nat -> value pathological x (Sum 2 (d - 2) (fun i => 1 / 2 + (sin (R_sqrt.sqrt (100 * X i ^ 2 + X (i + 1)%nat ^ 2)) ^ 2 - 1 / 2)
     / (1 + 1 / 1000 * (X i ^ 2 - 2 * X i * X (i + 1)%nat + X (i + 1)%nat ^ 2) ^ 2)))) /\
  ((3 < d)%nat -> (d mod 4 <> 0)%nat -> value powell x (Sum 1 (d / 4) (fun i =>
     (X (4 * i - 2)%nat + 10 * X (4 * i - 1)%nat) ^ 2 + 5 * (X (4 * i)%nat - X (4 * i + 1)%nat) ^ 2 + (X (4 * i - 1)%nat - 2 * X (4 * i)%nat) ^ 4 + 10 * (X (4 * i - 2)%nat - X (4 * i + 1)%nat) ^ 4))) /\
  ((3 < d)%nat -> value powell2 x (Sum 1 (d - 4) (fun i =>
     (X i + 10 * X (i + 1)%nat) ^ 2 + 5 * (X (i + 2)%nat - X (i + 3)%nat) ^ 2 + (X (i + 1)%nat - 2 * X (i + 2)%nat) ^ 4 + (X i - X (i + 3)%nat) ^ 4))) /\
  (forall b, length b = d -> power_sum (map Some x) (map Some b) = Ok (Some (Sum 1 d (fun i => (Sum 1 d (fun j => X j ^ (i - 1)) - coord b i) ^ 2)))) /\
  ((2 <= d)%nat -> value trigonometric1 x (Sum 1 d (fun i => (INR d - Sum 1 d (fun j => cos (X j)) + INR (i - 1) * (1 - cos (X i) - sin (X i))) ^ 2))) /\
  ((2 <= d)%nat -> value trigonometric2 x (1 + Sum 1 d (fun i => cos (X i))
     + Sum 1 d (fun i => 8 * sin (7 * (X i - 9 / 10) ^ 2) ^ 2 + 6 * sin (14 * (X 1%nat - 9 / 10) ^ 2) ^ 2 + (X i - 9 / 10) ^ 2))) /\
  value sargan x (Sum 1 d (fun i => Sum 1 d (fun j => INR d * (X i ^ 2 + 4 / 10 * Sum 1 j (fun k => if Nat.eq_dec k i then 0 else X i * X k))))).
Proof.
  intros x d X. exact (conj (deb1_formula x) (conj (deb3_formula x) (conj (brown_formula x) (conj (pathological_formula x) (conj (powell_formula x) (conj (powell2_formula x)
    (conj (power_sum_formula x) (conj (trigonometric1_formula x) (conj (trigonometric2_formula x) (sargan_formula x)))))))))).
Qed.
Print Assumptions C117_any_dimension.

(** gulf_research takes the logarithm of 0 in its first term, wherever it is evaluated. langermann counts its m weights and points from the second on: given m weights, as published, it panics. *)
Theorem C117_gulf_research_and_langermann :
  (forall x, length x = 99%nat -> undefined_at gulf_research x) /\
  (forall (x : list R) m (c : list R) (a : list (list R)), let D i := Sum 1 (length x) (fun j => (coord x j - coord (nth i a []) j) ^ 2) in
     (m < length c)%nat -> (m < length a)%nat -> (forall row, row ∈ a -> (length x <= length row)%nat) -> (forall i, (1 <= i <= m)%nat -> D i <> 0) ->
     langermann (map Some x) m (map Some c) (map (map Some) a) = Ok (Some (Sum 1 m (fun i => coord c (i + 1) * exp (- PI / D i) * cos (PI * D i))))) /\
  (forall (x : list (option R)) m c a, (1 <= m)%nat -> length c = m -> langermann x m c a = Panic).
Proof. exact (conj gulf_research_undefined (conj langermann_formula langermann_panics)). Qed.
Print Assumptions C117_gulf_research_and_langermann.

Example C117_nonvacuous :
  value powell2 [1; 2; 3; 4; 5] (21 ^ 2 + 5 + (-4) ^ 4 + (-3) ^ 4) /\ value powell [0; 1; 2; 3; 4] (21 ^ 2 + 5 + (-4) ^ 4 + 10 * (-3) ^ 4) /\
  value sargan [1; 2] (2 * 1 + 2 * (1 + 8 / 10) + 2 * (4 + 8 / 10) + 2 * (4 + 8 / 10)) /\
  (forall i, (i <= 14)%nat -> INR (16 - i) * 1 + Rmin (INR i) (INR (16 - i)) * 1 <> 0) /\
  (let D i := Sum 1 1 (fun j => (coord [0] j - coord (nth i [[0]; [1]] []) j) ^ 2) in D 1%nat <> 0).
Proof.
  split; [|split; [|split; [|split]]].
  - eapply value_eq; [apply powell2_formula; cbn; lia|]. unfold Sum, coord. cbn. ring.
  - eapply value_eq; [apply powell_formula; cbn; lia|]. unfold Sum, coord. cbn. ring.
  - eapply value_eq; [apply sargan_formula|]. unfold Sum, coord. cbn. lra.
  - intros i Hi. assert (2 <= INR (16 - i)) by (apply (le_INR 2); lia). pose proof (pos_INR i). assert (0 <= Rmin (INR i) (INR (16 - i))) by (apply Rmin_glb; lra). lra.
  - unfold Sum, coord. cbn. lra.
Qed.
