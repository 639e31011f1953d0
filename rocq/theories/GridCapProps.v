(** Properties of capacity provisioning for fractional instances with NLopt as this library calls
    it (C84).  Definitions: GridCapSpec.v, CapacitySpec.v, OptimizeSpec.v ([exact_nlopt],
    [hundredths]). *)
From Verif Require Import ObjectiveSpec CapacitySpec CapacityWork CapacityModel OptimizeModel OptimizeSpec VerifyModel StreamModel OfflineSpec Offline1DModel
  DataCenterModel DataCenterInstances DataCenterSpec OneTypeSpec OneTypeEnd GridCapModel GridCapSpec GridCapProofs GridCapEnd GridCapRestart GridCapWave GridCapOneType.
From Verif Require Import ProblemModel CostModel.
Local Open Scope Z_scope.

(** C84: solving a valid one-dimensional instance with convex costs by backward-recurrent capacity
    provisioning answers a schedule of multiples of 0.01 that is best (for the requested alpha)
    among all of them, and reports its cost. *)
Theorem offline_brcp_best_on_grid :
  forall (C D : Type) (vmerge : C -> C -> outcome C) (merge : C -> C -> C) (outside : D) (s sched : split)
         (nlopt : nl_problem -> outcome nl_result),
  exact_nlopt nlopt ->
  forall (p : gssco Q C D) (m beta : Q) (f : Z -> Q -> ext),
  verify_ssco valQ p = Ok tt -> g_bounds p = [m] -> g_switching p = [beta] -> hundredths m ->
  capacity_costsQ m f beta -> certain_costs vmerge p m f ->
  forall o, (0 <= fo_alpha o)%Q -> fo_l o = None -> fo_inverted o = false ->
  exists ys c, let xs := map (fun y => [y]) ys in
    offline_solve (ssco_ops valQ merge vmerge outside s) (brcp_ssco vmerge outside merge sched (point_minimize nlopt) o) p = Ok (xs, c) /\
    objective_1dQ merge vmerge outside s p 1 xs = Ok c /\ is_fin (c_cost c) /\
    servers_on hundredths m (g_tend p) ys /\
    forall zs, servers_on hundredths m (g_tend p) zs -> exists a b,
      objective_1dQ merge vmerge outside s p (fo_alpha o) xs = Ok a /\
      objective_1dQ merge vmerge outside s p (fo_alpha o) (map (fun z => [z]) zs) = Ok b /\ ele (c_cost a) (c_cost b).
Proof. exact @brcp_grid. Qed.
Print Assumptions offline_brcp_best_on_grid.

(** C84: in particular for data centres with one server type and location. *)
Theorem one_type_brcp_best_on_grid :
  forall (powf : Q -> Q -> Q) (m : data_center) price power revenue (l : location) (st : server_type) minimize
         (s sched : split) (nlopt : nl_problem -> outcome nl_result) (o : offline_options) (loads : list (list Q))
         (p : gssco Q dc_success dc_failure) (cap : Z),
  one_type powf m price power revenue l st -> trivial_exact minimize -> exact_nlopt nlopt ->
  to_ssco powf m valQ inject_Z minimize loads = Ok p -> Forall (profile m) loads ->
  DataCenterModel.lookup (lo_m l) (st_key st) = Ok cap -> positive_capacities m -> positive_switching m ->
  Forall (fun lambda => supported m st (inject_Z cap) (counted lambda)) loads ->
  (0 <= fo_alpha o)%Q -> fo_l o = None -> fo_inverted o = false ->
  exists ys c, let xs := map (fun y => [y]) ys in
    offline_solve (ssco_ops valQ dc_hmerge dc_vmerge OutsideDecisionSpace s)
      (brcp_ssco dc_vmerge OutsideDecisionSpace dc_hmerge sched (point_minimize nlopt) o) p = Ok (xs, c) /\
    objective_1dQ dc_hmerge dc_vmerge OutsideDecisionSpace s p 1 xs = Ok c /\ is_fin (c_cost c) /\
    servers_on hundredths (inject_Z cap) (Z.of_nat (length loads)) ys /\
    forall zs, servers_on hundredths (inject_Z cap) (Z.of_nat (length loads)) zs -> exists a b,
      objective_1dQ dc_hmerge dc_vmerge OutsideDecisionSpace s p (fo_alpha o) xs = Ok a /\
      objective_1dQ dc_hmerge dc_vmerge OutsideDecisionSpace s p (fo_alpha o) (map (fun z => [z]) zs) = Ok b /\ ele (c_cost a) (c_cost b).
Proof. exact one_type_brcp_grid. Qed.
Print Assumptions one_type_brcp_best_on_grid.

(** C84: fractional lazy capacity provisioning answers in the first slot, and in every further
    slot unless it suspects an optimum to pass through the bounds of an earlier slot. *)
Theorem fractional_lcp_answers :
  forall (C D : Type) (vmerge : C -> C -> outcome C) (merge : C -> C -> C) (outside : D) (sched : split)
         (nlopt : nl_problem -> outcome nl_result),
  exact_nlopt nlopt ->
  forall (p : gssco Q C D) (m beta : Q) (f : Z -> Q -> ext),
  verify_ssco valQ p = Ok tt -> g_bounds p = [m] -> g_switching p = [beta] -> hundredths m ->
  capacity_costsQ m f beta -> certain_costs vmerge p m f ->
  (1 <= g_tend p -> exists xs bs, fractional_lcp vmerge merge outside sched (point_minimize nlopt) p 0 1 = Ok (xs, Some bs)) /\
  (forall n xs bs, Z.of_nat n + 1 <= g_tend p ->
     fractional_lcp vmerge merge outside sched (point_minimize nlopt) p 0 n = Ok (xs, Some bs) -> ~ suspected bs ->
     exists x b, fractional_lcp vmerge merge outside sched (point_minimize nlopt) p 0 (S n) = Ok (xs ++ [x], Some (bs ++ [b]))).
Proof. exact @lcp_grid_goes_on. Qed.
Print Assumptions fractional_lcp_answers.

(** C84: up to the slot after the first such suspicion, its schedule consists of multiples of
    0.01 within the bounds and costs at most three times as much as any such schedule.  Missing:
    what happens afterwards, see [fractional_lcp_unbounded_refuted]. *)
Theorem fractional_lcp_competitive_partial :
  forall (C D : Type) (vmerge : C -> C -> outcome C) (merge : C -> C -> C) (outside : D) (sched : split)
         (nlopt : nl_problem -> outcome nl_result),
  exact_nlopt nlopt ->
  forall (p : gssco Q C D) (m beta : Q) (f : Z -> Q -> ext),
  verify_ssco valQ p = Ok tt -> g_bounds p = [m] -> g_switching p = [beta] -> hundredths m ->
  capacity_costsQ m f beta -> certain_costs vmerge p m f ->
  forall n xs bs, Z.of_nat n <= g_tend p ->
  fractional_lcp vmerge merge outside sched (point_minimize nlopt) p 0 n = Ok (xs, Some bs) ->
  ~ suspected (removelast bs) ->
  exists ys, xs = map (fun y => [y]) ys /\ servers_on hundredths m (Z.of_nat n) ys /\
    forall zs, servers_on hundredths m (Z.of_nat n) zs ->
      ele (servers_cost f beta 1 false ys) (escale 3 (servers_cost f beta 1 false zs)).
Proof. exact @lcp_grid. Qed.
Print Assumptions fractional_lcp_competitive_partial.

(** C84: after a restart in slot [s] at [c], the fractional bounds do not optimise the cost of the
    remaining slots but this cost plus that of moving back to [c] at the end. *)
Theorem restarted_bounds_charge_the_way_back :
  forall (C D : Type) (vmerge : C -> C -> outcome C) (merge : C -> C -> C) (outside : D) (sched : split)
         (p : gssco Q C D) (m beta : Q) (f : Z -> Q -> ext),
  g_bounds p = [m] -> g_switching p = [beta] -> certain_costs vmerge p m f ->
  forall alpha inverted s c xs, 1 <= s -> Z.of_nat (length xs) = g_tend p - s -> (0 <= c <= m)%Q ->
  Forall (fun x => (0 <= x <= m)%Q) xs ->
  let sw := fun prev x : Q => let d := (if inverted : bool then prev - x else x - prev)%Q in (beta * (if Qle_bool d 0 then 0 else d))%Q in
  exists v, bound_objective vmerge merge outside sched (gssco_extend (ssco_reset p s) 0) alpha inverted 0 (g_tend p) c xs = Ok v /\
    eeq v (eadd (total_cost (fun t => f (s + t)) sw alpha 1 c xs) (Fin (alpha * sw (last xs c) c))).
Proof. exact @restart_charges. Qed.
Print Assumptions restarted_bounds_charge_the_way_back.
