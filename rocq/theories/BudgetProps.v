(** Theorems about lazy budgeting for SLO (C27, C28, C29). *)
From Verif Require Import BudgetModel BudgetSpec BudgetLanes BudgetCover BudgetProofs BudgetRun.
From Verif Require Import CostModel ProblemModel.
Local Open Scope Z_scope.

(** C27: whatever the load, the switching and operating costs, the optimal schedules chosen
    by the search and the sampled [gamma], a run over the given loads does not fail; its
    configurations respect the bounds and cover the loads. *)
Theorem slo_lb_serves_load_partial :
  forall minimize hit sched (p : gslo Z) (gamma : Q) (randomized : bool) (n : nat),
  slo_instance p -> solver_reports minimize -> evaluates minimize p hit ->
  (randomized = true -> (0 <= gamma)%Q) ->
  Z.of_nat n <= Z.of_nat (length (l_load p)) ->
  exists xs m, slo_run minimize hit sched p gamma randomized n = Ok (xs, m) /\
    feasible_schedule (Z.of_nat n) (l_bounds p) xs /\
    forall i l x, nth_error (l_load p) i = Some l -> nth_error xs i = Some x -> l <= zsum x.
Proof. intros. apply run_feasible_covers; assumption. Qed.
Print Assumptions slo_lb_serves_load_partial.

(** C27: prediction windows are rejected. *)
Theorem slo_lb_window :
  forall minimize hit sched w (p : gslo Z) t m randomized,
  w <> 0 -> slo_lb minimize hit sched w p t m randomized = Err UnsupportedPredictionWindow.
Proof. exact slo_lb_rejects. Qed.
Print Assumptions slo_lb_window.

(** C27: a configuration of finite cost in the converted problem covers the load. *)
Theorem finite_cost_covers_load :
  forall minimize (p : gslo Z) t x l c,
  1 <= t -> 0 < l_d p -> Z.of_nat (length x) = l_d p -> Forall (fun j => 0 <= j) x -> solver_reports minimize ->
  access (l_load p) t = Some l -> sblo_hit valZ minimize (into_sblo p) t x = Ok c -> is_fin (c_cost c) ->
  l <= zsum x.
Proof. exact image_cost_covers. Qed.
Print Assumptions finite_cost_covers_load.

(** C28: the lanes of a configuration list its servers from the last (most efficient) to
    the first type, followed by inactive lanes. *)
Theorem lanes_of_configuration :
  forall (x : list Z) bound, Forall (fun j => 0 <= j) x -> zsum x <= bound ->
  build_lanes x (Z.of_nat (length x)) bound = Ok (lanes_of 1 x ++ repeat 0 (Z.to_nat (bound - zsum x))).
Proof. exact build_lanes_spec. Qed.
Print Assumptions lanes_of_configuration.

Theorem lanes_ordered :
  forall (x : list Z) bound lanes, Forall (fun j => 0 <= j) x -> zsum x <= bound ->
  build_lanes x (Z.of_nat (length x)) bound = Ok lanes ->
  Z.of_nat (length lanes) = bound /\ non_increasing lanes.
Proof. exact build_lanes_ordered. Qed.
Print Assumptions lanes_ordered.

(** C28: collecting the lanes of a configuration gives it back. *)
Theorem lanes_round_trip :
  forall (x : list Z) bound, Forall (fun j => 0 <= j) x -> zsum x <= bound ->
  exists lanes, build_lanes x (Z.of_nat (length x)) bound = Ok lanes /\
    collect_config (Z.of_nat (length x)) lanes = Ok x.
Proof. exact collect_build. Qed.
Print Assumptions lanes_round_trip.

(** C29: at every slot of a run there is an optimal schedule up to this slot such that a
    lane that is less efficient than in this schedule or whose horizon is over takes the
    type of this schedule, and every other lane keeps its type; the new horizon of a lane is
    at least the idle time of the optimal type from now on. *)
Theorem slo_lb_lazy_partial :
  forall minimize hit sched (p : gslo Z) (gamma : Q) (randomized : bool) (n : nat),
  slo_instance p -> solver_reports minimize -> evaluates minimize p hit ->
  (randomized = true -> (0 <= gamma)%Q) ->
  Z.of_nat n < Z.of_nat (length (l_load p)) ->
  exists xs m x m' opt,
    slo_run minimize hit sched p gamma randomized n = Ok (xs, m) /\
    slo_run minimize hit sched p gamma randomized (S n) = Ok (xs ++ [x], m') /\
    Z.of_nat (length (sm_lanes m')) = zsum (l_bounds p) /\
    Z.of_nat (length (sm_horizons m')) = zsum (l_bounds p) /\
    (forall k j, nth_error x k = Some j -> j = count (sm_lanes m') (Z.of_nat k + 1)) /\
    optimal_slots p hit (Z.of_nat n + 1) opt /\
    forall j a b a' b',
      nth_error (sm_lanes m) j = Some a -> nth_error (sm_horizons m) j = Some b ->
      nth_error (sm_lanes m') j = Some a' -> nth_error (sm_horizons m') j = Some b' ->
      let t := Z.of_nat n + 1 in
      let c := nth j (lanes_of 1 (last opt [])) 0 in
      (a < c \/ b <= t -> a' = c /\ b' = t + idle_slots p gamma randomized c) /\
      (c <= a -> t < b -> a' = a /\ b' = Z.max b (t + idle_slots p gamma randomized c)).
Proof. intros. apply run_step; assumption. Qed.
Print Assumptions slo_lb_lazy_partial.

(** C29: before its horizon a lane is never switched to a less efficient type (or off). *)
Theorem slo_lb_keeps_until_horizon_partial :
  forall minimize hit sched (p : gslo Z) (gamma : Q) (randomized : bool) (n k : nat) xs m xs' m' j a b a' b',
  slo_instance p -> solver_reports minimize -> evaluates minimize p hit ->
  (randomized = true -> (0 <= gamma)%Q) ->
  Z.of_nat (n + k) <= Z.of_nat (length (l_load p)) ->
  slo_run minimize hit sched p gamma randomized n = Ok (xs, m) ->
  slo_run minimize hit sched p gamma randomized (n + k) = Ok (xs', m') ->
  nth_error (sm_lanes m) j = Some a -> nth_error (sm_horizons m) j = Some b ->
  nth_error (sm_lanes m') j = Some a' -> nth_error (sm_horizons m') j = Some b' ->
  Z.of_nat (n + k) < b ->
  a <= a' /\ b <= b'.
Proof.
  intros minimize hit sched p gamma randomized n k xs m xs' m' j a b a' b' HP HR HE HG.
  exact (run_keeps minimize hit sched p HP HR HE gamma randomized HG k n xs m xs' m' j a b a' b').
Qed.
Print Assumptions slo_lb_keeps_until_horizon_partial.
