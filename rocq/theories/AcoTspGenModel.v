(** * Model of the generator of travelling salesman inputs (src/aco/tsp/util.rs:19-66) *)
From Verif Require Export AcoModel.
Open Scope nat_scope.

Definition f_100 : f64 := f_of_nat 100.
(** util.rs:27-28 [r.gen_range(0.0..100.0)] (rand 0.8 UniformFloat::sample_single): the draw u of [0, 1) is scaled to
    u * (100 - 0) + 0; rand tries again with a smaller scale when that is not below 100.  The retry is not modelled (it would
    be a Panic here); C98_cities_in_square shows that it never happens. *)
Definition gen_coordinate (r : rng) : outcome (f64 * rng) :=
  let '(u, r) := uni_f64 r in
  let v := fadd (fmul u (fsub f_100 f0)) f0 in
  if flt v f_100 then Ok (v, r) else Panic.
(** util.rs:26-31: first x, then y *)
Definition gen_city (r : rng) : outcome (f64 * f64 * rng) :=
  '(x, r) ← gen_coordinate r; '(y, r) ← gen_coordinate r; Ok ((x, y), r).
Definition gen_cities (n : nat) (r : rng) : outcome (list (f64 * f64) * rng) := repeatO n gen_city r.
(** util.rs:23-49 [generate_tsp_cost]; [r] stands for the thread's generator *)
Definition generate_tsp_cost (sol_size : nat) (r : rng) : outcome (list (f64 * f64) * matrix * rng) :=
  '(cities, r) ← gen_cities sol_size r; cost ← tsp_cost cities; Ok (cities, cost, r).
