(** Theorem about the costs of lazy budgeting for SLO (C79). *)
From Verif Require Import BudgetModel BudgetSpec OfflineSpec SloRatioProofs.
From Verif Require Import CostModel ProblemModel.
Local Open Scope Z_scope.

(** C79: with a single type of servers, after every number of slots the objective of the
    schedule chosen so far is finite and at most twice the objective of any schedule.
    Missing: the factor 2d for d > 1 types. *)
Theorem slo_lb_competitive_partial :
  forall minimize hit sched s (p : gslo Z) (gamma : Q) (n : nat),
  slo_instance p -> l_d p = 1 -> Forall (fun l => 0 <= l) (l_load p) ->
  solver_reports minimize -> evaluates minimize p hit ->
  Z.of_nat n <= Z.of_nat (length (l_load p)) ->
  exists xs m, slo_run minimize hit sched p gamma false n = Ok (xs, m) /\
    cheapest_within 2 (slo_objective_fn s (slo_at p (Z.of_nat n)) 1) (Z.of_nat n) (l_bounds p) xs.
Proof. exact slo_within_two. Qed.
Print Assumptions slo_lb_competitive_partial.
