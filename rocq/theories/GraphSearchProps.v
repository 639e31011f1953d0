(** Properties C04-C07 and C10: the multi-dimensional graph searches. *)
From Verif Require Import GraphSearchModel ApproxSearchModel GraphSearchSpec GraphSearchPick
  GraphSearchProofs ApproxSearchProofs.
From Verif Require Import ProblemModel.
Local Open Scope Z_scope.

(** C04: the returned schedule is optimal among all feasible integral schedules, for
    arbitrary hitting costs.  (For [inverted = true] it still minimises the
    non-inverted objective, see [search_nd_inverted_refuted].) *)
Theorem search_nd_optimal_partial :
  forall (C D : Type) (outside : D) (sched : Z -> vertice -> split) (p : ssco C D)
         (inverted : bool) (alpha : Q),
  searchable p -> (0 <= alpha)%Q ->
  exists path cache,
    optimal_graph_search outside sched p None inverted alpha None = Ok (path, cache) /\
    feasible_schedule (s_tend p) (s_bounds p) (gp_xs path) /\
    is_fin (gp_cost path) /\
    eeq (gp_cost path) (schedule_cost p alpha false (gp_xs path)) /\
    forall ys, feasible_schedule (s_tend p) (s_bounds p) ys ->
      ele (gp_cost path) (schedule_cost p alpha false ys).
Proof. exact @optimal_graph_search_correct. Qed.
Print Assumptions search_nd_optimal_partial.

(** C05: for every value grid the schedule has one allowed configuration per slot, is
    optimal among these, and its reported cost is its objective. *)
Theorem search_nd_grid_optimal_partial :
  forall (C D : Type) (outside : D) (sched : Z -> vertice -> split) (p : ssco C D)
         (vs : gvalues) (inverted : bool) (alpha : Q),
  searchable p -> grid_for vs (s_bounds p) -> (0 <= alpha)%Q ->
  exists path cache,
    graph_search outside sched p vs None inverted alpha None = Ok (path, cache) /\
    allowed_schedule (s_tend p) (v_values vs) (s_bounds p) (gp_xs path) /\
    is_fin (gp_cost path) /\
    eeq (gp_cost path) (schedule_cost p alpha false (gp_xs path)) /\
    forall ys, allowed_schedule (s_tend p) (v_values vs) (s_bounds p) ys ->
      ele (gp_cost path) (schedule_cost p alpha false ys).
Proof. exact @graph_search_correct. Qed.
Print Assumptions search_nd_grid_optimal_partial.

(** [schedule_cost] is what the library's objective function computes. *)
Theorem schedule_cost_is_objective :
  forall (C D : Type) (outside : D) (merge : C -> C -> C) (s : split) (p : ssco C D)
         (alpha : Q) (inverted : bool) (xs : list (list Z)),
  Z.of_nat (length xs) = s_tend p ->
  eeq (c_cost (objective_with_default merge s (ssco_problem outside p) xs (zero_config (s_d p))
                 alpha inverted (s_tend p)))
      (schedule_cost p alpha inverted xs).
Proof. exact @schedule_cost_objective. Qed.
Print Assumptions schedule_cost_is_objective.

(** C06: resuming from the cache of a shorter horizon gives exactly the result
    (path, cost and cache) of solving from scratch. *)
Theorem search_nd_resume :
  forall (C D : Type) (outside : D) (sched1 sched2 sched3 : Z -> vertice -> split)
         (p1 p2 : ssco C D) (inverted : bool) (alpha : Q) (path1 : gpath) (cache1 : gcache),
  s_d p1 = s_d p2 -> s_bounds p1 = s_bounds p2 -> s_switching p1 = s_switching p2 ->
  0 <= s_tend p1 <= s_tend p2 ->
  (forall t x, 1 <= t <= s_tend p1 -> c_cost (s_hit p1 t x) = c_cost (s_hit p2 t x)) ->
  optimal_graph_search outside sched1 p1 None inverted alpha None = Ok (path1, cache1) ->
  optimal_graph_search outside sched2 p2 (Some cache1) inverted alpha None
  = optimal_graph_search outside sched3 p2 None inverted alpha None.
Proof. exact @optimal_resume. Qed.
Print Assumptions search_nd_resume.

Theorem search_nd_grid_resume :
  forall (C D : Type) (outside : D) (sched1 sched2 sched3 : Z -> vertice -> split)
         (p1 p2 : ssco C D) (vs : gvalues) (inverted : bool) (alpha : Q) (path1 : gpath) (cache1 : gcache),
  s_d p1 = s_d p2 -> s_bounds p1 = s_bounds p2 -> s_switching p1 = s_switching p2 ->
  0 <= s_tend p1 <= s_tend p2 ->
  (forall t x, 1 <= t <= s_tend p1 -> c_cost (s_hit p1 t x) = c_cost (s_hit p2 t x)) ->
  graph_search outside sched1 p1 vs None inverted alpha None = Ok (path1, cache1) ->
  graph_search outside sched2 p2 vs (Some cache1) inverted alpha None
  = graph_search outside sched3 p2 vs None inverted alpha None.
Proof. exact @graph_search_resume. Qed.
Print Assumptions search_nd_grid_resume.

(** C07: whatever way the work is divided, the predecessor chosen is the first one of
    least cost (none only if all costs are infinite) ... *)
Theorem predecessor_is_first_least :
  forall (s : split) (candidates : list (edge * gpath)),
  match par_pick s candidates with
  | None => Forall (fun c => cand_cost c = Inf) candidates
  | Some c => first_least cand_cost candidates c
  end.
Proof. exact par_pick_spec. Qed.
Print Assumptions predecessor_is_first_least.

(** ... and the whole search gives the same result. *)
Theorem search_nd_independent_of_schedule :
  forall (C D : Type) (outside : D) (sched1 sched2 : Z -> vertice -> split) (p : ssco C D)
         (vs : gvalues) (cache : option gcache) (inverted : bool) (alpha : Q) (l : option Q),
  graph_search outside sched1 p vs cache inverted alpha l
  = graph_search outside sched2 p vs cache inverted alpha l.
Proof. exact @graph_search_sched. Qed.
Print Assumptions search_nd_independent_of_schedule.

(** C10: for gamma > 1 the values are computed in finitely many steps; they are exactly 0,
    the bounds and the rounded powers of gamma up to the largest bound, in increasing
    order; every level has a value at most a factor gamma above it. *)
Theorem approx_values :
  forall (bounds : list Z) (gamma : Q) (mx : Z),
  (1 < gamma)%Q -> max_of bounds = Some mx -> Forall (fun u => 0 <= u) bounds ->
  exists N values,
    (forall fuel, (N <= fuel)%nat -> build_values fuel bounds gamma = Some (Ok values)) /\
    increasing values /\ hd_error values = Some 0 /\
    (forall v, In v values <-> v = 0 \/ In v bounds \/
       exists i, 1 <= i /\ (v = Qfloor (Qpower gamma i) \/ v = Qceiling (Qpower gamma i)) /\ v <= mx) /\
    (forall u j, In u bounds -> 1 <= j <= u ->
       exists v, In v values /\ j <= v <= u /\ (inject_Z v <= gamma * inject_Z j)%Q).
Proof. exact build_values_spec. Qed.
Print Assumptions approx_values.

(** C10: the approximate search returns an optimum among schedules with these values. *)
Theorem approx_search_optimal_on_grid :
  forall (C D : Type) (outside : D) (p : ssco C D) (gamma : Q) (inverted : bool) (alpha : Q),
  searchable p -> (1 < gamma)%Q -> (0 <= alpha)%Q ->
  exists N values,
    (forall fuel, (N <= fuel)%nat -> build_values fuel (s_bounds p) gamma = Some (Ok values)) /\
    forall sched fuel, (N <= fuel)%nat -> exists path cache,
      approx_graph_search outside sched fuel p gamma None inverted alpha None = Some (Ok (path, cache)) /\
      allowed_schedule (s_tend p) values (s_bounds p) (gp_xs path) /\
      is_fin (gp_cost path) /\
      eeq (gp_cost path) (schedule_cost p alpha false (gp_xs path)) /\
      forall ys, allowed_schedule (s_tend p) values (s_bounds p) ys ->
        ele (gp_cost path) (schedule_cost p alpha false ys).
Proof. exact @approx_correct. Qed.
Print Assumptions approx_search_optimal_on_grid.
