(** Theorem about the expected costs reported by live sessions of randomised lazy budgeting for SLO (C89). *)
From Coq Require Import Reals Qreals.
From Coquelicot Require Import Hierarchy RInt.
From Verif Require Import VerifySpec VerifyModel DataCenterModel StreamModel SessionSpec SessionModel BudgetSpec BalancedSpec ForesightSpec OfflineSpec LiveSpec LiveModel
  ExpectSpec ExpectLive.
From Verif Require Import ProblemModel CostModel.
Local Open Scope R_scope.

(** C89: a live session of randomised lazy budgeting for SLO with a single type of servers answers
    every load, whatever number is drawn; the expected cost reported after each answer is at most
    e / (e - 1) times the objective of any schedule for the loads so far (at the operating costs
    of the start). *)
Theorem live_slo_randomized_competitive_partial :
  forall powf m minimize cast s sched loads more p q draw k,
  solver_extensional minimize -> solver_reports minimize ->
  to_slo powf m (fun z => z) cast loads = Ok p -> to_slo powf m (fun z => z) cast (loads ++ more) = Ok q ->
  Forall (fun lambda => length lambda = 1%nat) more ->
  let r := at_costs_of p q in
  well_formed_slo valZ r -> Forall (fun c => 0 < c)%Q (l_hitting r) -> l_d r = 1%Z ->
  evaluable (sblo_hit valZ minimize (into_sblo r)) (l_tend r) (l_bounds r) ->
  capacity_suffices (sblo_hit valZ minimize (into_sblo r)) (l_tend r) (l_bounds r) ->
  draws r draw -> (k <= length more)%nat ->
  let now := slo_part r (length loads + k) in
  exists (cost : R -> R) (E : R),
    (forall x, 0 <= x <= 1 -> exists off rs final c w,
       slo_session powf m minimize cast s sched true (draw x) 0 loads (map Input (into_online more)) = Ok (off, (map Answered rs, final)) /\
       length (of_xs off) = length loads /\ length rs = length more /\
       reported off rs k c /\ c_cost c = Fin w /\ cost x = Q2R w) /\
    is_RInt (V := R_NormedModule) cost 0 1 E /\
    forall ys c w, feasible_schedule (l_tend now) (l_bounds now) ys ->
      slo_objective_fn s now 1 ys = Ok c -> c_cost c = Fin w ->
      E <= exp 1 / (exp 1 - 1) * Q2R w.
Proof. exact session_expected. Qed.
Print Assumptions live_slo_randomized_competitive_partial.
