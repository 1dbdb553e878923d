(** * Property theorems: the decimal constants of the presets (C31, C50) *)
From Verif Require Import BuilderModel FfModel F64R DecimalProofs.
From Coq Require Import Reals.
Open Scope R_scope.

(** ** C31 *)
(** The rates of the preset builders are the binary64 numbers nearest to 0.2 and 0.05. *)
Theorem C31_preset_rates : f2r f_0_2 = rnd (2 / 10) /\ f2r f_0_05 = rnd (5 / 100).
Proof. exact preset_literals. Qed.
Print Assumptions C31_preset_rates.

(** ** C50 *)
(** The default gamma and delta, and the ends of the range of the random walk, are the binary64 numbers nearest to 0.01, 0.97, 0.01 and 0.99. *)
Theorem C50_default_constants :
  f2r (gamma ff_default_cfg) = rnd (1 / 100) /\ f2r (delta ff_default_cfg) = rnd (97 / 100) /\ f2r f_0_01 = rnd (1 / 100) /\ f2r f_0_99 = rnd (99 / 100).
Proof. destruct ff_literals as (A & B & C). auto. Qed.
Print Assumptions C50_default_constants.
