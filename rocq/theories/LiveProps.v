(** Theorems about live sessions of lazy budgeting for data centres with several types of servers
    (C89).  Definitions: LiveSpec.v, SessionSpec.v ([reported]), OfflineSpec.v
    ([cheapest_within], [covers], [evaluable], [capacity_suffices]), BalancedSpec.v,
    BalancedRatioSpec.v, VerifySpec.v. *)
From Verif Require Import VerifySpec VerifyModel DataCenterModel StreamModel SessionModel SessionSpec BudgetSpec BalancedModel BalancedSpec
  BalancedRatioSpec OfflineSpec LiveSpec LiveModel LiveLoads LiveCompete LiveBalanced.
From Verif Require Import ProblemModel CostModel LoadModel.
Local Open Scope Z_scope.

(** C89: updating an instance of SBLO load by load yields the instance generated for all loads. *)
Theorem live_sblo_instance :
  forall powf m (ofZ : Z -> Z) cast loads more p,
  to_sblo powf m ofZ cast loads = Ok p -> Forall (fun lambda => length lambda = 1%nat) more ->
  exists q, to_sblo powf m ofZ cast (loads ++ more) = Ok q /\
    updates (update_sblo cast) (mkOnline p 0) (into_online more) = Ok (mkOnline q 0).
Proof. exact (fun powf m => @sblo_day powf m Z). Qed.
Print Assumptions live_sblo_instance.

(** C89: for SLO, the instance differs from the generated one by the operating costs, which stay
    those of the loads known at the start. *)
Theorem live_slo_instance_partial :
  forall powf m (ofZ : Z -> Z) cast loads more p q,
  to_slo powf m ofZ cast loads = Ok p -> to_slo powf m ofZ cast (loads ++ more) = Ok q ->
  Forall (fun lambda => length lambda = 1%nat) more ->
  updates (update_slo cast) (mkOnline p 0) (into_online more) = Ok (mkOnline (at_costs_of p q) 0).
Proof. exact (fun powf m => @slo_day powf m Z). Qed.
Print Assumptions live_slo_instance_partial.

(** C89: a live session of lazy budgeting for SLO answers every load; the configurations respect
    the bounds and cover the loads, and the cost reported after each answer is the objective of
    the schedule so far for the loads so far (at the operating costs of the start). *)
Theorem live_slo_serves_partial :
  forall powf m minimize cast s sched randomized gamma loads more p q,
  solver_extensional minimize -> solver_reports minimize -> (randomized = true -> (0 <= gamma)%Q) ->
  to_slo powf m (fun z => z) cast loads = Ok p -> to_slo powf m (fun z => z) cast (loads ++ more) = Ok q ->
  Forall (fun lambda => length lambda = 1%nat) more ->
  let r := at_costs_of p q in
  well_formed_slo valZ r -> Forall (fun c => 0 < c)%Q (l_hitting r) ->
  evaluable (sblo_hit valZ minimize (into_sblo r)) (l_tend r) (l_bounds r) ->
  capacity_suffices (sblo_hit valZ minimize (into_sblo r)) (l_tend r) (l_bounds r) ->
  exists off rs mem,
    slo_session powf m minimize cast s sched randomized gamma 0 loads (map Input (into_online more))
      = Ok (off, (map Answered rs, Some (mkOnline r 0, of_xs off ++ map r_x rs, mem))) /\
    length (of_xs off) = length loads /\ length rs = length more /\
    feasible_schedule (l_tend r) (l_bounds r) (of_xs off ++ map r_x rs) /\ covers r (of_xs off ++ map r_x rs) /\
    forall k c, (k <= length more)%nat -> reported off rs k c ->
      slo_objective_fn s (slo_part r (length loads + k)) 1 (of_xs off ++ map r_x (firstn k rs)) = Ok c.
Proof. exact slo_session_serves. Qed.
Print Assumptions live_slo_serves_partial.

(** C89: with a single type of servers the schedule is, after every answer, at most twice as
    expensive as any other schedule for the loads so far (at the operating costs of the start). *)
Theorem live_slo_competitive_partial :
  forall powf m minimize cast s sched gamma loads more p q,
  solver_extensional minimize -> solver_reports minimize ->
  to_slo powf m (fun z => z) cast loads = Ok p -> to_slo powf m (fun z => z) cast (loads ++ more) = Ok q ->
  Forall (fun lambda => length lambda = 1%nat) more ->
  let r := at_costs_of p q in
  well_formed_slo valZ r -> Forall (fun c => 0 < c)%Q (l_hitting r) -> l_d r = 1 ->
  evaluable (sblo_hit valZ minimize (into_sblo r)) (l_tend r) (l_bounds r) ->
  capacity_suffices (sblo_hit valZ minimize (into_sblo r)) (l_tend r) (l_bounds r) ->
  exists off rs final,
    slo_session powf m minimize cast s sched false gamma 0 loads (map Input (into_online more)) = Ok (off, (map Answered rs, final)) /\
    length (of_xs off) = length loads /\ length rs = length more /\
    forall k c, (k <= length more)%nat -> reported off rs k c ->
      let xs := of_xs off ++ map r_x (firstn k rs) in
      let now := slo_part r (length loads + k) in
      slo_objective_fn s now 1 xs = Ok c /\
      cheapest_within 2 (slo_objective_fn s now 1) (l_tend now) (l_bounds now) xs.
Proof. exact slo_session_two. Qed.
Print Assumptions live_slo_competitive_partial.

(** C89: a live session of lazy budgeting for SBLO with parameter [epsilon] answers every load;
    after every answer, the cost reported is the objective of the schedule so far for the
    instance generated from the loads so far, and it is at most [2 d + 1 + epsilon] times that of
    any other schedule. *)
Theorem live_sblo_competitive :
  forall powf m minimize cast s sched epsilon loads more p q n,
  let sub := sub_problem q n (b_tend q) in
  solver_extensional minimize ->
  to_sblo powf m (fun z => z) cast loads = Ok p -> to_sblo powf m (fun z => z) cast (loads ++ more) = Ok q ->
  Forall (fun lambda => length lambda = 1%nat) more ->
  (0 < epsilon)%Q ->
  (forall t, 1 <= t <= b_tend q -> determine_sub_time_slots q t epsilon = Ok (n t) /\ 0 < n t) ->
  balanced_instance minimize q (b_tend q) -> balanced_instance minimize sub (b_tend sub) ->
  convex_servers q -> assigns_best minimize q -> assigns_best minimize sub ->
  exists off rs mem,
    sblo_session powf m minimize cast s sched epsilon 0 loads (map Input (into_online more))
      = Ok (off, (map Answered rs, Some (mkOnline q 0, of_xs off ++ map r_x rs, mem))) /\
    length (of_xs off) = length loads /\ length rs = length more /\
    forall k today c, (k <= length more)%nat -> to_sblo powf m (fun z => z) cast (loads ++ firstn k more) = Ok today -> reported off rs k c ->
      let xs := of_xs off ++ map r_x (firstn k rs) in
      sblo_objective_fn minimize s today 1 xs = Ok c /\
      ((1 <= length loads + k)%nat ->
       cheapest_within (2 * inject_Z (b_d today) + 1 + epsilon) (sblo_objective_fn minimize s today 1) (b_tend today) (b_bounds today) xs).
Proof. exact sblo_session_competitive. Qed.
Print Assumptions live_sblo_competitive.
