(** Theorems about the competitive ratio of lazy budgeting for SBLO (C77). *)
From Verif Require Import StreamModel BalancedModel BalancedSpec OfflineSpec BalancedRatioSpec BalancedCosts BalancedCompete.
From Verif Require Import ProblemModel CostModel LoadModel.
Local Open Scope Z_scope.

(** C77: when idle servers of type [k] cost at most the fraction [c_k] of powering one up, the
    schedule algorithm B returns after streaming all slots costs at most [2 d + 1 + sum of c]
    times as much as any other schedule of the instance. *)
Theorem algb_competitive :
  forall minimize sched s (p : gsblo Z) c,
  solver_extensional minimize -> balanced_instance minimize p (b_tend p) -> 1 <= b_tend p ->
  convex_servers p -> assigns_best minimize p -> idle_at_most p c ->
  exists o xs m,
    offline_stream (BalancedModel.sblo_ops minimize) (alg_b minimize sched) (fun _ => algb_default) (b_tend p) (mkOnline (sblo_at p 1) 0)
      = Some (o, xs, Ok (Some m)) /\
    cheapest_within (2 * inject_Z (b_d p) + 1 + Qsum c) (sblo_objective_fn minimize s p 1) (b_tend p) (b_bounds p) xs.
Proof. exact algb_within. Qed.
Print Assumptions algb_competitive.

(** C77: lazy budgeting with parameter [epsilon], which runs algorithm B on sub-slots, returns
    a schedule that costs at most [2 d + 1 + epsilon] times as much as any other schedule of
    the instance. *)
Theorem sblo_lb_competitive :
  forall minimize sched s (p : gsblo Z) epsilon n,
  let T := b_tend p in
  let q := sub_problem p n T in
  solver_extensional minimize -> 1 <= T -> (0 < epsilon)%Q ->
  (forall t, 1 <= t <= T -> determine_sub_time_slots p t epsilon = Ok (n t) /\ 0 < n t) ->
  balanced_instance minimize p T -> balanced_instance minimize q (b_tend q) ->
  convex_servers p -> assigns_best minimize p -> assigns_best minimize q ->
  exists xs m, sblo_run minimize sched epsilon p (Z.to_nat T) = Ok (xs, Some m) /\
    cheapest_within (2 * inject_Z (b_d p) + 1 + epsilon) (sblo_objective_fn minimize s p 1) T (b_bounds p) xs.
Proof. exact sblo_lb_within. Qed.
Print Assumptions sblo_lb_competitive.

(** C77: the instance of the sub-slots prices a schedule that is kept during each slot like
    the original instance. *)
Theorem sub_slots_same_cost :
  forall minimize (p : gsblo Z) n,
  let T := b_tend p in
  let q := sub_problem p n T in
  0 <= T -> (forall t, 1 <= t <= T -> 0 < n t) ->
  balanced_instance minimize p T -> convex_servers p ->
  balanced_instance minimize q (b_tend q) -> assigns_best minimize p -> assigns_best minimize q ->
  forall ys, feasible_schedule T (b_bounds p) ys ->
  let zs := map (fun t => nth (Z.to_nat (t - 1)) ys []) (sub_slots n T) in
  feasible_schedule (b_tend q) (b_bounds q) zs /\
  forall s, exists c c', sblo_objective_fn minimize s p 1 ys = Ok c /\ sblo_objective_fn minimize s q 1 zs = Ok c' /\
    eeq (c_cost c') (c_cost c).
Proof. exact spread_objective. Qed.
Print Assumptions sub_slots_same_cost.

(** C77: additional servers never cost more than their being idle. *)
Theorem additional_servers :
  forall minimize (p : gsblo Z) t x y,
  balanced_instance minimize p (b_tend p) -> convex_servers p -> assigns_best minimize p ->
  1 <= t <= b_tend p -> feasible_config (b_bounds p) x -> feasible_config (b_bounds p) y ->
  (forall k, (k < length y)%nat -> nth k y 0 <= nth k x 0) ->
  exists c c' r, sblo_hit valZ minimize p t x = Ok c /\ sblo_hit valZ minimize p t y = Ok c' /\
    (forall k, (k < length y)%nat -> eeq (server_cost p k t 0) (Fin (nth k r 0%Q))) /\
    ele (c_cost c) (eadd (c_cost c') (Fin (Qsum (map (fun k => inject_Z (nth k x 0%Z - nth k y 0%Z) * nth k r 0%Q)%Q (seq 0 (length y)))))).
Proof. exact more_servers. Qed.
Print Assumptions additional_servers.
