(** Theorem about the expected costs of randomised lazy budgeting for SLO (C90). *)
From Coq Require Import Reals Qreals.
From Coquelicot Require Import Hierarchy RInt.
From Verif Require Import BudgetModel BudgetSpec OfflineSpec ExpectSpec ExpectProofs.
From Verif Require Import CostModel ProblemModel.
Local Open Scope R_scope.

(** C90: with a single type of servers, if the number kept in the memory is drawn as the code
    draws it, then after every number of slots the expected objective of the schedule chosen so
    far, that is its integral over the number drawn uniformly from the unit interval, is at most
    e / (e - 1) times the objective of any schedule. *)
Theorem slo_lb_randomized_competitive :
  forall minimize hit sched s (p : gslo Z) (n : nat) (draw : R -> Q),
  slo_instance p -> l_d p = 1%Z -> Forall (fun l => 0 <= l)%Z (l_load p) ->
  solver_reports minimize -> evaluates minimize p hit ->
  (Z.of_nat n <= Z.of_nat (length (l_load p)))%Z ->
  draws p draw ->
  exists (cost : R -> R) (E : R),
    (forall r, 0 <= r <= 1 -> exists xs m k q,
       slo_run minimize hit sched p (draw r) true n = Ok (xs, m) /\
       slo_objective_fn s (slo_at p (Z.of_nat n)) 1 xs = Ok k /\ c_cost k = Fin q /\ cost r = Q2R q) /\
    is_RInt (V := R_NormedModule) cost 0 1 E /\
    forall ys k q, feasible_schedule (Z.of_nat n) (l_bounds p) ys ->
      slo_objective_fn s (slo_at p (Z.of_nat n)) 1 ys = Ok k -> c_cost k = Fin q ->
      E <= exp 1 / (exp 1 - 1) * Q2R q.
Proof. exact randomized_competitive. Qed.
Print Assumptions slo_lb_randomized_competitive.
