(** * Population generators (src/ga/population/impls.rs, src/ga/population/tools.rs) *)
From Verif Require Export IndividualModel.
Open Scope nat_scope.

(** tools.rs:56: [(constr.end - constr.start) * self.rng.sample(distr) + constr.start] *)
Definition scale (c : f64 * f64) (u : f64) : f64 := fadd (fmul (fsub c.2 c.1) u) c.1.
(** tools.rs:54-57: one point, one draw per coordinate; a constraint [start..end] is the pair (start, end). *)
Fixpoint one_point (constraints : list (f64 * f64)) (r : rng) : list f64 * rng :=
  match constraints with
  | [] => ([], r)
  | c :: cs =>
      let '(u, r1) := uni_f64 r in
      let '(xs, r2) := one_point cs r1 in
      (scale c u :: xs, r2)
  end.
(** tools.rs:45-59 [PointGenerator::generate_with_constraints] *)
Definition generate_with_constraints (dim n : nat) (constraints : list (f64 * f64)) (r : rng) : outcome (list (list f64) * rng) :=
  _ ← rassert (bool_decide (dim = length constraints));
  Ok (repeatM n (one_point constraints) r).
(** tools.rs:34-41 [PointGenerator::generate_with_single_constraint], 29-31 [PointGenerator::generate] *)
Definition generate_with_single_constraint (dim n : nat) (constraint : f64 * f64) (r : rng) :=
  generate_with_constraints dim n (replicate dim constraint) r.
Definition generate_points (dim n : nat) (r : rng) := generate_with_single_constraint dim n (f0, f1) r.

(** [.map(|chromosome| IndividualT::from(chromosome)).collect_vec()] *)
Definition individuals {G} (chs : list (list G)) : list (individual G) := ind_from <$> chs.

(** impls.rs:15-19 [struct RandomPoints]; 80-94 [with_constraints_and_rng], 103-110 [with_rng],
    28-61 the other constructors, which reduce to these ([with_constraints_inclusive] turns [a..=b] into [a..b]). *)
Record random_points := RandomPoints { rp_dim : nat; rp_constraints : list (f64 * f64); rp_rng : rng }.
Definition random_points_with_constraints (dim : nat) (constraints : list (f64 * f64)) (r : rng) : outcome random_points :=
  _ ← rassert (bool_decide (0 < dim));
  _ ← rassert (bool_decide (dim = length constraints));
  Ok (RandomPoints dim constraints r).
Definition random_points_with_rng (dim : nat) (r : rng) : outcome random_points :=
  _ ← rassert (bool_decide (0 < dim));
  Ok (RandomPoints dim (replicate dim (f0, f1)) r).
(** impls.rs:122-128 [RandomPoints::generate]: draws from a clone of the RNG *)
Definition random_points_generate (kind : rng_kind) (g : random_points) (count : nat)
  : outcome (list (individual f64) * random_points) :=
  '(points, r1) ← generate_with_constraints (rp_dim g) count (rp_constraints g) (rp_rng g);
  Ok (individuals points, RandomPoints (rp_dim g) (rp_constraints g) (after_clone kind (rp_rng g) r1)).

(** impls.rs:134-137 [struct BitStrings], 157-160 [with_rng], 171-183 [generate] *)
Record bit_strings := BitStrings { bs_dim : nat; bs_rng : rng }.
Definition bit_strings_with_rng (dim : nat) (r : rng) : outcome bit_strings :=
  _ ← rassert (bool_decide (0 < dim)); Ok (BitStrings dim r).
Definition bit_strings_generate (g : bit_strings) (count : nat) : list (individual bool) * bit_strings :=
  let '(rows, r1) := repeatM count (repeatM (bs_dim g) gen_bool) (bs_rng g) in
  (individuals rows, BitStrings (bs_dim g) r1).

(** impls.rs:190-193 [struct RandomPermutations], 213-215 [with_rng], 230-240 [generate] *)
Record random_permutations (G : Type) := RandomPermutations { perm_genes : list G; perm_rng : rng }.
Arguments RandomPermutations {_} _ _.
Arguments perm_genes {_} _.
Arguments perm_rng {_} _.
Definition random_permutations_generate {G} (g : random_permutations G) (count : nat)
  : outcome (list (individual G) * random_permutations G) :=
  '(rows, r1) ← repeatO count (shuffle (perm_genes g)) (perm_rng g);
  Ok (individuals rows, RandomPermutations (perm_genes g) r1).
