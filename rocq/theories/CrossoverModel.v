(** * Crossover operators (src/ga/operators/crossover/impls/[operator].rs)

    [apply_single] functions are modelled on chromosomes (lists of genes of an arbitrary type [G]);
    the operator state is its RNG.  Wrapping the result with [IndividualT::from] happens in [apply_*]. *)
From Verif Require Export IndividualModel.
From stdpp Require Export sorting.
Open Scope nat_scope.

Section Crossover.
Context {G : Type}.
Notation pair2 := (list G * list G)%type.

(** The loop [for locus in lo..hi { c1.push(x[locus]); c2.push(y[locus]); }] that the operators share
    (e.g. single_point.rs:69-72 with x,y = parent_1,parent_2 and 74-77 with x,y = parent_2,parent_1). *)
Definition push_locus (x y : list G) (c : pair2) (locus : nat) : outcome pair2 :=
  g1 ← index x locus; g2 ← index y locus; Ok (c.1 ++ [g1], c.2 ++ [g2]).
Definition copy_loci (x y : list G) (lo hi : nat) (c : pair2) : outcome pair2 :=
  ofold (push_locus x y) c (seq lo (hi - lo)).

(** single_point.rs:52-81 [SinglePoint::apply_single]; no assertion on equal lengths. *)
Definition single_point (p1 p2 : list G) (r : rng) : outcome (pair2 * rng) :=
  let len := length p1 in
  '(cut, r1) ← gen_range 0 len r;
  c ← copy_loci p1 p2 0 cut ([], []);
  c ← copy_loci p2 p1 cut len c;
  Ok (c, r1).

(** two_point.rs:53-103 [TwoPoint::apply_single]. *)
Definition two_point (p1 p2 : list G) (r : rng) : outcome (pair2 * rng) :=
  _ ← rassert (bool_decide (length p1 = length p2));
  let len := length p1 in
  '(a, r1) ← gen_range 0 len r;
  '(b, r2) ← gen_range 0 len r1;
  let '(cut1, cut2) := if decide (a <= b) then (a, b) else (b, a) in
  c ← copy_loci p1 p2 0 cut1 ([], []);
  c ← copy_loci p2 p1 cut1 cut2 c;
  c ← copy_loci p1 p2 cut2 len c;
  Ok (c, r2).

(** fixed_point.rs:37-58 [FixedPoint::apply_single]: children start as clones of the parents and
    loci cut_point..len are overwritten. *)
Definition fixed_step (p1 p2 : list G) (c : pair2) (i : nat) : outcome pair2 :=
  g2 ← index p2 i; c1 ← assign c.1 i g2;
  g1 ← index p1 i; c2 ← assign c.2 i g1;
  Ok (c1, c2).
Definition fixed_point (cut : nat) (p1 p2 : list G) : outcome pair2 :=
  ofold (fixed_step p1 p2) (p1, p2) (seq cut (length p1 - cut)).

(** multi_point.rs:98-102: the prefix loop; the (references to the) current parents are exchanged
    in EVERY iteration. *)
Definition multi_prefix_step (p1 p2 : list G) (s : pair2 * pair2) (locus : nat) : outcome (pair2 * pair2) :=
  c ← push_locus p1 p2 s.1 locus;
  Ok (c, (s.2.2, s.2.1)).
(** multi_point.rs:104-110: one segment per consecutive pair of cut points, exchanging after each. *)
Definition multi_segment_step (cuts : list nat) (s : pair2 * pair2) (idx : nat) : outcome (pair2 * pair2) :=
  lo ← index cuts idx; hi ← index cuts (idx + 1);
  c ← copy_loci s.2.1 s.2.2 lo hi s.1;
  Ok (c, (s.2.2, s.2.1)).
(** multi_point.rs:65-119 [MultiPoint::apply_single], after the cut points are known. *)
Definition multi_point_with (k : nat) (cuts : list nat) (p1 p2 : list G) : outcome pair2 :=
  c0 ← index cuts 0;
  s ← ofold (multi_prefix_step p1 p2) (([], []), (p1, p2)) (seq 0 c0);
  s ← ofold (multi_segment_step cuts) s (seq 0 (k - 1));
  cl ← index cuts (k - 1);
  copy_loci s.2.1 s.2.2 cl (length p1) s.1.
(** multi_point.rs:65-119; [with_rng] (50-53) asserts cut_points_no >= 1 as well. *)
Definition multi_point (k : nat) (p1 p2 : list G) (r : rng) : outcome (pair2 * rng) :=
  _ ← rassert (bool_decide (length p1 = length p2));
  _ ← rassert (bool_decide (k <= length p1));
  _ ← rassert (bool_decide (1 <= k));
  '(sampled, r1) ← sample_indices (length p1) k r;
  c ← multi_point_with k (merge_sort (≤) sampled) p1 p2;
  Ok (c, r1).

(** The loop over an enumerated mask shared by uniform.rs:78-86, uniform_parameterized.rs:80-88 and
    shuffle.rs:78-86: [true] means "as is", [false] means "exchanged". *)
Definition mask_step (p1 p2 : list G) (c : pair2) (ib : nat * bool) : outcome pair2 :=
  if ib.2 then push_locus p1 p2 c ib.1 else push_locus p2 p1 c ib.1.
Definition apply_mask (mask : list bool) (p1 p2 : list G) : outcome pair2 :=
  ofold (mask_step p1 p2) ([], []) (imap pair mask).

(** uniform.rs:50-89 [Uniform::apply_single]; the mask is drawn from [self.rng.clone()]. *)
Definition uniform (kind : rng_kind) (p1 p2 : list G) (r : rng) : outcome (pair2 * rng) :=
  _ ← rassert (bool_decide (length p1 = length p2));
  let '(vals, r1) := repeatM (length p1) uni_f64 r in
  c ← apply_mask ((fun v => fge v fhalf) <$> vals) p1 p2;
  Ok (c, after_clone kind r r1).

(** uniform_parameterized.rs:56-91 [UniformParameterized::apply_single]. *)
Definition uniform_parameterized (kind : rng_kind) (bias : f64) (p1 p2 : list G) (r : rng)
  : outcome (pair2 * rng) :=
  _ ← rassert (bool_decide (length p1 = length p2));
  let '(vals, r1) := repeatM (length p1) uni_f64 r in
  c ← apply_mask ((fun v => fle v bias) <$> vals) p1 p2;
  Ok (c, after_clone kind r r1).

(** shuffle.rs:57-89 [Shuffle::apply_single]; no assertion on equal lengths. *)
Definition shuffle_xo (p1 p2 : list G) (r : rng) : outcome (pair2 * rng) :=
  let len := length p1 in
  '(cut, r1) ← gen_range 0 len r;
  '(sh, r2) ← shuffle (seq 0 len) r1;
  c ← apply_mask ((fun x => bool_decide (x < cut)) <$> sh) p1 p2;
  Ok (c, r2).

Context `{EqDecision G}.

(** ordered.rs:72-78: the first while loop.  [rest] is p2[index..]; an exhausted p2 is an
    out-of-bounds index.  The HashSet of the substring is used only through [contains]. *)
Fixpoint ordered_fill (begin : nat) (sub child rest : list G) : outcome (list G * list G) :=
  if decide (length child < begin) then
    match rest with
    | [] => Panic
    | g :: rest' =>
        ordered_fill begin sub (if bool_decide (g ∈ sub) then child else child ++ [g]) rest'
    end
  else Ok (child, rest).
(** ordered.rs:84-90: the second while loop (index < chromosome_len; both parents have that length). *)
Fixpoint ordered_rest (sub child rest : list G) : list G :=
  match rest with
  | [] => child
  | g :: rest' => ordered_rest sub (if bool_decide (g ∈ sub) then child else child ++ [g]) rest'
  end.
(** ordered.rs:65-67 / 80-82: reading p1[begin..end], panicking out of bounds. *)
Definition read_range (p : list G) (lo hi : nat) : outcome (list G) :=
  omapM (index p) (seq lo (hi - lo)).
(** ordered.rs:49-92 [OrderedCrossover::create_child] *)
Definition ordered_child (p1 p2 : list G) (begin fin : nat) : outcome (list G) :=
  sub ← read_range p1 begin fin;
  '(child, rest) ← ordered_fill begin sub [] p2;
  Ok (ordered_rest sub (child ++ sub) rest).
(** ordered.rs:110-136 [OrderedCrossover::apply_single]; [begin..=len] is [begin..len+1]. *)
Definition ordered (p1 p2 : list G) (r : rng) : outcome (pair2 * rng) :=
  _ ← rassert (bool_decide (length p1 = length p2));
  let len := length p1 in
  '(begin, r1) ← gen_range 0 len r;
  '(fin, r2) ← gen_range begin (len + 1) r1;
  c1 ← ordered_child p1 p2 begin fin;
  c2 ← ordered_child p2 p1 begin fin;
  Ok ((c1, c2), r2).

(** pmx.rs:53-66 [Pmx::to_val_index_map] followed by [get]: the HashMap insertion of a repeated key
    overwrites, so the LAST index of a gene wins. *)
Fixpoint val_index (l : list G) (g : G) : option nat :=
  match l with
  | [] => None
  | x :: xs =>
      match val_index xs g with
      | Some i => Some (S i)
      | None => if decide (x = g) then Some 0 else None
      end
  end.
(** pmx.rs:105-114: the repair [loop], starting at [j]; returns the final place. *)
Fixpoint pmx_place (fuel : nat) (p1 p2 : list G) (begin fin j : nat) : outcome nat :=
  match fuel with
  | 0 => Diverge
  | S fuel =>
      v ← index p1 j;
      place ← unwrap (val_index p2 v);
      if decide (begin <= place < fin) then pmx_place fuel p1 p2 begin fin place else Ok place
  end.
(** pmx.rs:99-115: body of the for loop over the substring indices. *)
Definition pmx_step (fuel : nat) (p1 p2 sub : list G) (begin fin : nat)
    (nc : list (option G)) (i : nat) : outcome (list (option G)) :=
  gene ← index p2 i;
  if bool_decide (gene ∈ sub) then Ok nc
  else place ← pmx_place fuel p1 p2 begin fin i; assign nc place (Some gene).
(** pmx.rs:118-123: turning the optional genes into the child, filling from p2. *)
Definition pmx_finish (p2 : list G) (nc : list (option G)) : outcome (list G) :=
  omapM (fun io : nat * option G => match io.2 with Some g => Ok g | None => index p2 io.1 end)
        (imap pair nc).
(** pmx.rs:75-125 [Pmx::create_child] *)
Definition pmx_child (fuel : nat) (p1 p2 : list G) (begin fin : nat) : outcome (list G) :=
  sub ← read_range p1 begin fin;
  nc ← ofold (fun nc i => g ← index p1 i; assign nc i (Some g))
         (replicate (length p1) None) (seq begin (fin - begin));
  nc ← ofold (pmx_step fuel p1 p2 sub begin fin) nc (seq begin (fin - begin));
  pmx_finish p2 nc.
(** pmx.rs:149-175 [Pmx::apply_single] *)
Definition pmx (fuel : nat) (p1 p2 : list G) (r : rng) : outcome (pair2 * rng) :=
  _ ← rassert (bool_decide (length p1 = length p2));
  let len := length p1 in
  '(begin, r1) ← gen_range 0 len r;
  '(fin, r2) ← gen_range begin (len + 1) r1;
  c1 ← pmx_child fuel p1 p2 begin fin;
  c2 ← pmx_child fuel p2 p1 begin fin;
  Ok ((c1, c2), r2).

(** ppx.rs:79-87: the inner while loop: scan the chosen parent from its index ([rest]) to the first
    gene not yet taken; running off the end is an out-of-bounds index. *)
Fixpoint ppx_next (taken rest : list G) : outcome (G * list G) :=
  match rest with
  | [] => Panic
  | g :: rest' => if bool_decide (g ∈ taken) then ppx_next taken rest' else Ok (g, rest')
  end.
(** ppx.rs:75-88: the outer while loop, once per entry of [take_from_p1] (its length is the chromosome
    length).  already_taken always equals the set of genes of the child. *)
Fixpoint ppx_loop (mask : list bool) (child r1 r2 : list G) : outcome (list G) :=
  match mask with
  | [] => Ok child
  | true :: mask' => '(g, r1') ← ppx_next child r1; ppx_loop mask' (child ++ [g]) r1' r2
  | false :: mask' => '(g, r2') ← ppx_next child r2; ppx_loop mask' (child ++ [g]) r1 r2'
  end.
(** ppx.rs:56-90 [Ppx::create_child] (mask of length chromosome_len) *)
Definition ppx_child (p1 p2 : list G) (mask : list bool) : outcome (list G) :=
  ppx_loop mask [] p1 p2.
(** ppx.rs:110-138 [Ppx::apply_single] *)
Definition ppx (p1 p2 : list G) (r : rng) : outcome (pair2 * rng) :=
  _ ← rassert (bool_decide (length p1 = length p2));
  let '(mask, r1) := repeatM (length p1) gen_bool r in
  c1 ← ppx_child p1 p2 mask;
  c2 ← ppx_child p2 p1 mask;
  Ok ((c1, c2), r1).

End Crossover.

(** ** [apply]: the mating pool is processed in consecutive pairs. *)

(** The loop [for parents in selected.chunks(2)] (single_point.rs:103-117 and, identically,
    two_point.rs:125-139, fixed_point.rs:76-90, multi_point.rs:139-153, uniform.rs:109-123,
    uniform_parameterized.rs:111-125, shuffle.rs:114-128, ordered.rs:166-180, pmx.rs:210-224,
    ppx.rs:169-183).  [single] is the operator's apply_single on individuals with the operator state S;
    a chunk of one element makes [parents[1]] panic. *)
Fixpoint apply_chunks {I S} (single : I -> I -> S -> outcome ((I * I) * S))
    (selected : list I) (s : S) : outcome (list I * S) :=
  match selected with
  | [] => Ok ([], s)
  | [_] => Panic
  | a :: b :: rest =>
      '((c1, c2), s1) ← single a b s;
      '(out, s2) ← apply_chunks single rest s1;
      Ok (c1 :: c2 :: out, s2)
  end.
Definition crossover_apply {I S} (single : I -> I -> S -> outcome ((I * I) * S))
    (selected : list I) (s : S) : outcome (list I * S) :=
  _ ← rassert (Nat.even (length selected));
  apply_chunks single selected s.

(** [apply_single] at the level of individuals: [IndividualT::from] of the child chromosomes. *)
Definition lift_single {G} (op : list G -> list G -> rng -> outcome ((list G * list G) * rng))
    (a b : individual G) (r : rng) : outcome ((individual G * individual G) * rng) :=
  '((c1, c2), r1) ← op (chromosome a) (chromosome b) r;
  Ok ((ind_from c1, ind_from c2), r1).
(** FixedPoint clones the parents, so its children keep the parents' fitness (fixed_point.rs:48-49). *)
Definition fixed_single {G} (cut : nat) (a b : individual G) (s : unit)
  : outcome ((individual G * individual G) * unit) :=
  '(c1, c2) ← fixed_point cut (chromosome a) (chromosome b);
  Ok ((Ind c1 (fitness a), Ind c2 (fitness b)), s).
