(** Property C96: integers of 32 bits. *)
From Verif Require Import ObjectiveSpec OverflowModel OverflowProofs.
Local Open Scope Z_scope.

(** With overflow checks or without them, the one-dimensional graph search for up to 2^28 servers does
    exactly what it does with unbounded integers ... *)
Theorem search_1d_within_i32_partial :
  forall (C D : Type) (b : build) (outside : D) (p : ssco C D) (x_start : Z) (inverted : bool) (alpha : Q) (l : option Q) (m : Z),
  s_bounds p = [m] -> 0 <= m <= 2 ^ 28 ->
  machine_graph_search_1d b outside p x_start inverted alpha l = optimal_graph_search_1d outside p x_start inverted alpha l.
Proof. exact @machine_agree. Qed.
Print Assumptions search_1d_within_i32_partial.

(** ... and hence is optimal. *)
Theorem search_1d_machine_optimal_partial :
  forall (C D : Type) (b : build) (outside : D) (p : ssco C D) (x_start : Z) (inverted : bool) (alpha beta : Q) (m : Z),
  s_d p = 1 -> s_bounds p = [m] -> s_switching p = [beta] -> 0 <= s_tend p ->
  0 <= m <= 2 ^ 28 -> x_start <= m ->
  (0 <= alpha)%Q -> (0 <= beta)%Q ->
  (forall t, 1 <= t <= s_tend p -> convex_on m (fun j => c_cost (s_hit p t [j]))) ->
  (forall t, 1 <= t <= s_tend p -> is_fin (c_cost (s_hit p t [m]))) ->
  (forall t j, 1 <= t <= s_tend p -> 0 <= j <= m -> ele (Fin 0) (c_cost (s_hit p t [j]))) ->
  let J := total_cost (fun t x => c_cost (s_hit p t x)) (switching [beta] inverted) alpha 1 [x_start] in
  exists r,
    machine_graph_search_1d b outside p x_start inverted alpha None = Ok r /\
    is_fin (pa_cost r) /\
    let xs := map (fun j => [j]) (pa_xs r) in
    feasible_schedule (s_tend p) [m] xs /\
    eeq (pa_cost r) (J xs) /\
    forall ys, feasible_schedule (s_tend p) [m] ys -> ele (pa_cost r) (J ys).
Proof. exact @machine_optimal. Qed.
Print Assumptions search_1d_machine_optimal_partial.

(** With overflow checks, it panics for all larger bounds. *)
Theorem search_1d_large_bounds_refuted :
  forall (C D : Type) (outside : D) (p : ssco C D) (x_start : Z) (inverted : bool) (alpha beta : Q) (m : Z),
  s_d p = 1 -> s_bounds p = [m] -> s_switching p = [beta] -> 1 <= s_tend p -> 2 ^ 28 < m ->
  machine_graph_search_1d Checked outside p x_start inverted alpha None = Panic.
Proof. exact @machine_panics. Qed.
Print Assumptions search_1d_large_bounds_refuted.

(** The approximate graph search is not affected by the saturating conversion of its grid to integers, unless
    a bound is the largest integer. *)
Theorem approx_search_within_i32_partial :
  forall (C D : Type) (outside : D) (sched : Z -> vertice -> split) (fuel : nat) (p : ssco C D) (gamma : Q)
         (cache : option gcache) (inverted : bool) (alpha : Q) (l : option Q),
  (0 <= gamma)%Q -> (forall m, In m (s_bounds p) -> m < 2 ^ 31 - 1) ->
  machine_approx_graph_search outside sched fuel p gamma cache inverted alpha l =
  approx_graph_search outside sched fuel p gamma cache inverted alpha l.
Proof. exact @approx_agree. Qed.
Print Assumptions approx_search_within_i32_partial.
