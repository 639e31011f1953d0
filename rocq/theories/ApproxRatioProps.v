(** Property theorems: the approximate graph search is an approximation scheme (C69). *)
From Verif Require Import GraphSearchModel GraphSearchSpec ApproxSearchModel ApproxRatioSpec ApproxRatioProofs.
From Verif Require Import ProblemModel.
Local Open Scope Z_scope.

(** C69: if raising all levels by a factor of at most 2 gamma - 1 raises hitting costs by at most this
    factor, the search terminates with a feasible schedule whose cost it reports, and this cost is at
    most 2 gamma - 1 times the cost of any feasible schedule, whatever the order of parallel work. *)
Theorem approx_search_ratio :
  forall (C D : Type) (outside : D) (p : ssco C D) (gamma : Q) (inverted : bool) (alpha : Q),
  searchable p -> (1 < gamma)%Q -> (0 <= alpha)%Q -> grows_at_most (2 * gamma - 1) p ->
  exists N, forall sched fuel, (N <= fuel)%nat -> exists path cache,
    approx_graph_search outside sched fuel p gamma None inverted alpha None = Some (Ok (path, cache)) /\
    feasible_schedule (s_tend p) (s_bounds p) (gp_xs path) /\
    is_fin (gp_cost path) /\
    eeq (gp_cost path) (schedule_cost p alpha false (gp_xs path)) /\
    forall ys, feasible_schedule (s_tend p) (s_bounds p) ys ->
      ele (gp_cost path) (escale (2 * gamma - 1) (schedule_cost p alpha false ys)).
Proof. exact @approx_ratio_correct. Qed.
Print Assumptions approx_search_ratio.

(** C69: every precision eps > 0 is reached, with gamma = 1 + eps/2. *)
Theorem approx_search_scheme :
  forall (C D : Type) (outside : D) (p : ssco C D) (eps : Q) (inverted : bool) (alpha : Q),
  searchable p -> (0 < eps)%Q -> (0 <= alpha)%Q -> grows_at_most (1 + eps) p ->
  exists N, forall sched fuel, (N <= fuel)%nat -> exists path cache,
    approx_graph_search outside sched fuel p (1 + eps / 2) None inverted alpha None = Some (Ok (path, cache)) /\
    feasible_schedule (s_tend p) (s_bounds p) (gp_xs path) /\
    is_fin (gp_cost path) /\
    eeq (gp_cost path) (schedule_cost p alpha false (gp_xs path)) /\
    forall ys, feasible_schedule (s_tend p) (s_bounds p) ys ->
      ele (gp_cost path) (escale (1 + eps) (schedule_cost p alpha false ys)).
Proof. exact @scheme. Qed.
Print Assumptions approx_search_scheme.

(** C69: the number of values per dimension is logarithmic in the largest bound: if gamma^n exceeds
    it there are at most 2(n-1) values besides 0 and the bounds. *)
Theorem approx_values_few :
  forall (bounds : list Z) (gamma : Q) (mx : Z) (n : nat),
  (1 < gamma)%Q -> max_of bounds = Some mx -> Forall (fun u => 0 <= u) bounds ->
  (inject_Z (mx + 1) <= Qpower gamma (Z.of_nat n))%Q ->
  exists N values, (forall fuel, (N <= fuel)%nat -> build_values fuel bounds gamma = Some (Ok values)) /\
    (length values <= 1 + length bounds + 2 * (n - 1))%nat.
Proof. exact values_number. Qed.
Print Assumptions approx_values_few.

(** C69: costs per active server under the requirement that the servers suffice for the load (SLO)
    are among the costs covered, for every factor. *)
Theorem load_costs_covered :
  forall (cs : list Q) (load c : Q) (x y : list Z),
  Forall (fun q => 0 <= q)%Q cs -> raised c x y ->
  ele (load_cost cs load y) (escale c (load_cost cs load x)).
Proof. exact load_cost_raised. Qed.
Print Assumptions load_costs_covered.
