(** Model of the number drawn by randomised lazy budgeting:
    src/algorithms/online/multi_dimensional/lazy_budgeting/smoothed_load_optimization.rs.  No proofs. *)
From Coq Require Import Reals.
Local Open Scope R_scope.

(** smoothed_load_optimization.rs:55-61 -- [sample_gamma]; [r] is the number drawn uniformly from the
    closed unit interval (src/utils.rs:77-80).  Over the reals, not floating-point numbers. *)
Definition sample_gamma (r : R) : R := ln (r * (exp 1 - 1) + 1).
