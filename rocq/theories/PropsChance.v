(** * Property theorems: the chances of random outcomes (C120 - C122)

    The draws are the raw values of the operator's generator: the k-th value modulo 2^53 (2^52) is the k-th
    number drawn from [0, 1) times 2^53 (2^52), the k-th value modulo n the k-th index drawn below n. *)
From Verif Require Import ChanceProofs ChanceRateProofs ChanceRankProofs.
From Verif Require Import SelectionSpec SelectionModel MutationSpec MutationModel CrossoverSpec CrossoverModel F64R SusProofs.
From Coq Require Import Reals Lra Lia.
Open Scope nat_scope.

(** ** C120 *)
Theorem C120_roulette_share :
  forall (G : Type) (pop : list (individual G)) (s : nat) (p : individual G), pop !! s = Some p ->
  Forall (fun q => nonneg_finite (fitness q)) pop -> ffinite (foldl fadd f0 (map fitness pop)) = true ->
  (Z.of_nat (length pop) <= 2 ^ 40)%Z -> (/ 2 ^ 900 <= exact_total (map fitness pop))%R ->
  exists a b, (a <= b <= 2 ^ 53)%N /\
    (forall count r, exists sel r', roulette_wheel count pop r = Ok (sel, r') /\ length sel = count /\
       forall k, k < count -> (sel !! k = Some s <-> (a <= r k mod 2 ^ 53 < b)%N)) /\
    (Rabs (IZR (Z.of_N b - Z.of_N a) / 2 ^ 53 - f2r (fitness p) / exact_total (map fitness pop))
       <= 6 * (INR (length pop) + 1) / 2 ^ 53)%R.
Proof. exact @roulette_share. Qed.
Print Assumptions C120_roulette_share.

(** Fitness 1 and 3: the first member is selected by the draws up to a quarter of 2^53. *)
Definition two : list (individual nat) := [Ind [0] f1; Ind [1] (f_of_nat 3)].
Example C120_nonvacuous :
  Forall (fun q => nonneg_finite (fitness q)) two /\ ffinite (foldl fadd f0 (map fitness two)) = true /\
  (/ 2 ^ 900 <= exact_total (map fitness two))%R /\
  exists r', roulette_wheel 3 two (rng_of [0; 2251799813685248; 2251799813685249]%N) = Ok ([0; 0; 1], r').
Proof.
  split; [repeat constructor|]. split; [reflexivity|]. split; [|eexists; vm_compute; reflexivity].
  unfold exact_total. cbn [map two fold_right fitness]. rewrite f2r_f1. 
  assert (f2r (f_of_nat 3) = 3)%R as -> by (destruct (f_of_nat_exact 3 ltac:(lia)) as (_ & _ & ->); cbn; lra).
  apply Rle_trans with (/ 1)%R; [apply Rinv_le_contravar; [lra|apply pow_R1_Rle; lra]|]. lra.
Qed.

(** ** C121 *)
Theorem C121_rates :
  forall rate, fvalid rate -> ffinite rate = true -> (0 <= f2r rate <= 1)%R ->
  (* FlipBit flips a gene *)
  (exists K, chance_up K (2 ^ 52) (f2r rate) /\ forall (ch : list bool) (r t : rng),
     exists ch' r', flip_bit rate ch r t = Ok (ch', r', t) /\
       forall i b, ch !! i = Some b -> ch' !! i = Some (if (r i mod 2 ^ 52 <? K)%N then negb b else b)) /\
  (* Reversing exchanges two neighbours *)
  (exists K, chance_up K (2 ^ 52) (f2r rate) /\ forall (G : Type) (x : G) (rest : list G) (r t : rng),
     exists r', reversing rate (x :: rest) r t = Ok (sweep (fun k => (r k mod 2 ^ 52 <? K)%N) 0 x rest, r', t)) /\
  (* Interchange exchanges a gene with one at a position drawn from the thread's generator *)
  (exists K, chance_up K (2 ^ 52) (f2r rate) /\ forall (G : Type) (ch : list G) (r t : rng), ch <> [] ->
     exists r' t', interchange rate ch r t =
       Ok (exchanges (fun i => (r i mod 2 ^ 52 <? K)%N) (fun m => N.to_nat (t m mod N.of_nat (length ch))) (length ch) 0 0 ch, r', t')) /\
  (* Inversion reverses a segment: its start is any position, its end any position from there on *)
  (exists K, chance_over K (2 ^ 53) (f2r rate) /\ forall (G : Type) (ch : list G) (r t : rng), ch <> [] ->
     ((r 0%nat mod 2 ^ 53 <? K)%N = false -> inversion rate ch r t = Ok (ch, rng_tail r, t)) /\
     ((r 0%nat mod 2 ^ 53 <? K)%N = true -> exists from to r',
        from = N.to_nat (r 1%nat mod N.of_nat (length ch)) /\ to = from + N.to_nat (r 2%nat mod N.of_nat (length ch - from)) /\
        inversion rate ch r t = Ok (reverse_segment from to ch, r', t))) /\
  (* UniformParameterized: the first child takes a gene from the first parent *)
  (exists K, chance_over K (2 ^ 52) (f2r rate) /\ forall (G : Type) kind (p1 p2 : list G) (r : rng), length p1 = length p2 ->
     exists c1 c2 r', uniform_parameterized kind rate p1 p2 r = Ok ((c1, c2), r') /\
       follows (fun i => (r i mod 2 ^ 52 <? K)%N) p1 p2 c1 c2).
Proof.
  exact (fun rate V F R => conj (flip_chance rate V F R) (conj (reversing_chance rate V F R) (conj (interchange_chance rate V F R)
    (conj (inversion_chance rate V F R) (uniform_p_chance rate V F R))))).
Qed.
Print Assumptions C121_rates.

(** Uniform: exactly half of the draws *)
Theorem C121_uniform_half :
  forall (G : Type) kind (p1 p2 : list G) (r : rng), length p1 = length p2 ->
  exists c1 c2 r', uniform kind p1 p2 r = Ok ((c1, c2), r') /\ follows (fun i => (2 ^ 51 <=? r i mod 2 ^ 52)%N) p1 p2 c1 c2.
Proof. exact uniform_chance. Qed.
Print Assumptions C121_uniform_half.

Example C121_nonvacuous :
  fvalid fhalf /\ ffinite fhalf = true /\ (0 <= f2r fhalf <= 1)%R /\
  chance_up (2 ^ 51) (2 ^ 52) (/ 2) /\ chance_over (2 ^ 51 + 1) (2 ^ 52) (/ 2) /\
  (exists r', flip_bit fhalf [true; true] (rng_of [2251799813685247; 2251799813685248]%N) (rng_of []) = Ok ([false; true], r', rng_of [])) /\
  (exists r' t', interchange fhalf [5; 6; 7] (rng_of [0; 2251799813685248; 0]%N) (rng_of [1; 0]%N) = Ok ([7; 5; 6], r', t')) /\
  exchanges (fun i => i =? 0) (fun _ => 2) 3 0 0 [5; 6; 7] = [7; 6; 5].
Proof.
  split; [reflexivity|]. split; [reflexivity|].
  split. { assert (f2r fhalf = (IZR 4503599627370496 * / IZR 9007199254740992)%R) as -> by reflexivity. lra. }
  split. { split; [discriminate|]. change (Z.of_N (2 ^ 52)) with 4503599627370496%Z. change (Z.of_N (2 ^ 51)) with 2251799813685248%Z. lra. }
  split. { right. split; [discriminate|]. change (Z.of_N (2 ^ 52)) with 4503599627370496%Z. change (Z.of_N (2 ^ 51 + 1)) with 2251799813685249%Z. lra. }
  split; [eexists; vm_compute; reflexivity|]. split; [eexists _, _; vm_compute; reflexivity|reflexivity].
Qed.

(** ** C122 *)
(** Rank: the k-th selection is the winner of the pair given by draws 2k and 2k+1 ... *)
Theorem C122_rank_draws :
  forall (G : Type) (count : nat) (pop : list (individual G)) (r : rng), pop <> [] ->
  exists sel r', rank count pop r = Ok (sel, r') /\ length sel = count /\
  forall k s, sel !! k = Some s ->
    rank_winner pop (N.to_nat (r (2 * k)%nat mod N.of_nat (length pop)), N.to_nat (r (2 * k + 1)%nat mod N.of_nat (length pop))) s.
Proof. exact @rank_draws. Qed.
Print Assumptions C122_rank_draws.

(** ... and of the n * n pairs a member wins as many as there are members not fitter, plus members less fit than itself. *)
Theorem C122_rank_wins :
  forall (G : Type) (pop : list (individual G)) (s : nat) (a : individual G), pop !! s = Some a -> comparable pop ->
  exists wins : list (nat * nat), NoDup wins /\ (forall ij, ij ∈ wins <-> rank_winner pop ij s) /\
    length wins = length (List.filter (fun p => fle (fitness p) (fitness a)) pop) + length (List.filter (fun p => flt (fitness p) (fitness a)) pop).
Proof. exact @rank_wins. Qed.
Print Assumptions C122_rank_wins.

(** RankR: the first of two random members with the given probability, whatever their fitness. *)
Theorem C122_rank_r_draws :
  forall rate, fvalid rate -> ffinite rate = true -> (0 <= f2r rate <= 1)%R ->
  exists K, chance_up K (2 ^ 52) (f2r rate) /\ forall (G : Type) (pop : list (individual G)) count (r : rng), pop <> [] ->
  exists sel r', rank_r rate count pop r = Ok (sel, r') /\ length sel = count /\
    forall k s, sel !! k = Some s -> s = N.to_nat ((if r (3 * k + 2)%nat mod 2 ^ 52 <? K then r (3 * k)%nat else r (3 * k + 1)%nat) mod N.of_nat (length pop))%N.
Proof. exact rank_r_chance. Qed.
Print Assumptions C122_rank_r_draws.

(** Tournament: every group of k+1 positions is, up to order, exactly one of the (n choose k+1) listed ones ... *)
Theorem C122_groups :
  forall n k, length (groups k (seq 0 n)) = choose n k /\ NoDup (groups k (seq 0 n)) /\
  forall g, NoDup g -> length g = k -> Forall (fun i => i < n) g ->
    exists c, c ∈ groups k (seq 0 n) /\ c ≡ₚ g /\ forall d, d ∈ groups k (seq 0 n) -> d ≡ₚ g -> d = c.
Proof. exact groups_spec. Qed.
Print Assumptions C122_groups.

(** ... and a member whose fitness is nobody else's wins as many of them as there are k less fit members to choose. *)
Theorem C122_tournament_wins :
  forall (G : Type) (pop : list (individual G)) (s : nat) (a : individual G) (k : nat), pop !! s = Some a -> comparable pop ->
  (forall j p, pop !! j = Some p -> j <> s -> feq (fitness p) (fitness a) = false) ->
  exists wins : list (list nat), NoDup wins /\
    (forall g, g ∈ wins <-> g ∈ groups (S k) (seq 0 (length pop)) /\ tournament_winner pop g s) /\
    length wins = choose (length (List.filter (fun p => flt (fitness p) (fitness a)) pop)) k.
Proof. exact @tournament_wins. Qed.
Print Assumptions C122_tournament_wins.

(** Four members of fitness 0, 1, 2, 3: of the 16 pairs they win 1, 3, 5 and 7, of the 6 groups of two 0, 1, 2 and 3. *)
Definition four : list (individual nat) := [Ind [0] f0; Ind [1] f1; Ind [2] (f_of_nat 2); Ind [3] (f_of_nat 3)].
Example C122_nonvacuous :
  comparable four /\
  map (fun a => length (List.filter (fun p => fle (fitness p) (fitness a)) four) + length (List.filter (fun p => flt (fitness p) (fitness a)) four)) four = [1; 3; 5; 7] /\
  map (fun a => choose (length (List.filter (fun p => flt (fitness p) (fitness a)) four)) 1) four = [0; 1; 2; 3] /\
  choose 4 2 = 6 /\ groups 2 (seq 0 4) = [[0; 1]; [0; 2]; [0; 3]; [1; 2]; [1; 3]; [2; 3]] /\
  exists r', rank 2 four (rng_of [0; 5; 2; 3]%N) = Ok ([1; 3], r').
Proof.
  split; [repeat constructor|]. do 4 (split; [vm_compute; reflexivity|]). eexists. vm_compute. reflexivity.
Qed.
