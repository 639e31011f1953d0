(** Property theorems: one-dimensional graph search (C01, C02, C03). *)
From Verif Require Import ProblemModel ObjectiveSpec Search1DModel Search1DTop.
Local Open Scope Z_scope.

(** C01: optimality for convex costs on power-of-two bounds.  [alpha], the direction
    [inverted] and the start configuration are arbitrary.  The cost at full capacity
    must be finite (see [search_1d_infinite_capacity_refuted] in Search1DExamples.v). *)
Theorem search_1d_optimal :
  forall (C D : Type) (outside : D) (p : ssco C D) (x_start : Z) (inverted : bool) (alpha beta : Q) (m : Z),
  s_d p = 1 -> s_bounds p = [m] -> s_switching p = [beta] -> 0 <= s_tend p ->
  (exists k, 0 <= k /\ m = 2 ^ k) ->
  (0 <= alpha)%Q -> (0 <= beta)%Q ->
  (forall t, 1 <= t <= s_tend p -> convex_on m (fun j => c_cost (s_hit p t [j]))) ->
  (forall t, 1 <= t <= s_tend p -> is_fin (c_cost (s_hit p t [m]))) ->
  let J := total_cost (fun t x => c_cost (s_hit p t x)) (switching [beta] inverted) alpha 1 [x_start] in
  exists r,
    optimal_graph_search_1d outside p x_start inverted alpha None = Ok r /\
    is_fin (pa_cost r) /\
    let xs := map (fun j => [j]) (pa_xs r) in
    feasible_schedule (s_tend p) [m] xs /\
    eeq (pa_cost r) (J xs) /\
    forall ys, feasible_schedule (s_tend p) [m] ys -> ele (pa_cost r) (J ys).
Proof. exact @search_1d_pow2. Qed.
Print Assumptions search_1d_optimal.

(** C03: optimality, within the original bound, for arbitrary bounds (padded instances). *)
Theorem search_1d_optimal_padded :
  forall (C D : Type) (outside : D) (p : ssco C D) (x_start : Z) (inverted : bool) (alpha beta : Q) (m : Z),
  s_d p = 1 -> s_bounds p = [m] -> s_switching p = [beta] -> 0 <= s_tend p ->
  0 <= m -> x_start <= m ->
  (0 <= alpha)%Q -> (0 <= beta)%Q ->
  (forall t, 1 <= t <= s_tend p -> convex_on m (fun j => c_cost (s_hit p t [j]))) ->
  (forall t, 1 <= t <= s_tend p -> is_fin (c_cost (s_hit p t [m]))) ->
  (forall t j, 1 <= t <= s_tend p -> 0 <= j <= m -> ele (Fin 0) (c_cost (s_hit p t [j]))) ->
  let J := total_cost (fun t x => c_cost (s_hit p t x)) (switching [beta] inverted) alpha 1 [x_start] in
  exists r,
    optimal_graph_search_1d outside p x_start inverted alpha None = Ok r /\
    is_fin (pa_cost r) /\
    let xs := map (fun j => [j]) (pa_xs r) in
    feasible_schedule (s_tend p) [m] xs /\
    eeq (pa_cost r) (J xs) /\
    forall ys, feasible_schedule (s_tend p) [m] ys -> ele (pa_cost r) (J ys).
Proof. exact @search_1d_any. Qed.
Print Assumptions search_1d_optimal_padded.

(** C03: the padded instance has the costs of the original one within its bound, and
    its bound is the least power of two not below the original one. *)
Theorem padding_keeps_costs :
  forall (C D : Type) (outside : D) (p : ssco C D) (m : Z),
  s_bounds p = [m] -> 0 <= m ->
  (forall t j, 0 <= j <= m ->
     ssco_hit_cost outside (make_pow_of_2 outside p m) t [j] = ssco_hit_cost outside p t [j]) /\
  exists k, 0 <= k /\ s_bounds (make_pow_of_2 outside p m) = [2 ^ k] /\ m <= 2 ^ k /\
            forall i, 0 <= i -> m <= 2 ^ i -> 2 ^ k <= 2 ^ i.
Proof. exact @padding_spec. Qed.
Print Assumptions padding_keeps_costs.

(** C02: without any assumption on the costs, a returned path either is the empty path
    of infinite cost (every candidate schedule has infinite cost), or has one
    configuration per slot within the bounds of the instance searched, and the
    reported cost is the value of the objective function of the library. *)
Theorem search_1d_reports_objective :
  forall (C D : Type) (merge : C -> C -> C) (outside : D) (p : ssco C D) (x_start : Z)
         (inverted : bool) (alpha beta : Q) (m : Z) (r : path),
  s_bounds p = [m] -> s_switching p = [beta] -> 0 <= s_tend p -> 0 <= m ->
  optimal_graph_search_1d outside p x_start inverted alpha None = Ok r ->
  let q := if is_pow_of_2 m then p else make_pow_of_2 outside p m in
  let xs := map (fun j => [j]) (pa_xs r) in
  (xs = [] /\ pa_cost r = Inf) \/
  (feasible_schedule (s_tend p) (s_bounds q) xs /\ is_fin (pa_cost r) /\
   forall s, eeq (pa_cost r)
     (c_cost (objective_with_default merge s (ssco_problem outside q) xs [x_start] alpha inverted (s_tend p)))).
Proof. exact @search_1d_objective. Qed.
Print Assumptions search_1d_reports_objective.

(** C01-C03: options and dimensions that are not supported are rejected. *)
Theorem search_1d_rejects :
  forall (C D : Type) (outside : D) (p : ssco C D) (x_start : Z) (inverted : bool) (alpha : Q) (l : option Q),
  (l <> None -> optimal_graph_search_1d outside p x_start inverted alpha l = Err UnsupportedLConstrainedMovement) /\
  (l = None -> s_d p <> 1 ->
     optimal_graph_search_1d outside p x_start inverted alpha l = Err UnsupportedProblemDimension).
Proof. exact @search_1d_unsupported. Qed.
Print Assumptions search_1d_rejects.
