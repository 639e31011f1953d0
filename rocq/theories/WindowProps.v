(** Properties of optimising over windows of time slots with NLopt as this library calls it
    (C82).  Definitions: WindowSpec.v, OptimizeSpec.v ([exact_nlopt]) and HorizonSpec.v
    ([solves]). *)
From Verif Require Import CostSpec VerifySpec OptimizeModel OptimizeSpec HorizonModel HorizonSpec HorizonRunModel HorizonRunSpec StaticModel GraphSearchModel OfflineSpec
  OneTypeSpec WindowModel WindowSpec WindowProofs WindowEnd WindowOrder WindowOneType.
From Verif Require Import ProblemModel CostModel.
Local Open Scope Z_scope.

(** C82: the library's optimiser solves the problems of horizon control and of the offline
    algorithms among the configurations with multiples of 0.01, with constraints violated by at
    most 0.001, if NLopt is exact. *)
Theorem window_optimiser_solves :
  forall (nlopt : nl_problem -> outcome nl_result) (bounds : list (Q * Q)) (n : nat)
         (F : list (list Q) -> ext) (Gs : list (list (list Q) -> Q)),
  exact_nlopt nlopt -> aligned bounds -> respects_rows eeq F -> Forall (respects_rows Qeq) Gs ->
  solves (Forall hundredths) (1 # 1000) (window_minimize nlopt) bounds n F Gs.
Proof. exact nlopt_solves. Qed.
Print Assumptions window_optimiser_solves.

(** C82: solving a valid instance with the fractional offline algorithm answers a schedule of
    multiples of 0.01 that is best (for the requested alpha) among those which move at most as
    far as allowed, and reports its cost. *)
Theorem offline_fractional_best :
  forall (C D : Type) (vmerge : C -> C -> outcome C) (merge : C -> C -> C) (outside : D)
         (nlopt : nl_problem -> outcome nl_result),
  exact_nlopt nlopt ->
  forall (sched : list Q -> split) (p : gsco Q C D),
  verify_sco p = Ok tt -> aligned (o_bounds p) -> computable vmerge p ->
  forall (s : split) (o : offline_options), fo_inverted o = false ->
  exists xs c,
    offline_solve (sco_ops valQ merge vmerge outside s) (co_solver vmerge merge outside nlopt sched o) p = Ok (xs, c) /\
    grid_schedule (o_tend p) (o_bounds p) xs /\
    sco_objective valQ merge vmerge outside s p 1 xs = Ok c /\
    forall ys, grid_schedule (o_tend p) (o_bounds p) ys ->
    (forall l, fo_l o = Some l -> (sco_movement p ys <= l)%Q) ->
      (forall l, fo_l o = Some l -> (sco_movement p xs <= l + (1 # 1000))%Q) /\
      exists a b, sco_objective valQ merge vmerge outside s p (fo_alpha o) xs = Ok a /\
        sco_objective valQ merge vmerge outside s p (fo_alpha o) ys = Ok b /\ ele (c_cost a) (c_cost b).
Proof. exact @co_solved. Qed.
Print Assumptions offline_fractional_best.

(** C82: likewise the static fractional algorithm, among the schedules that never move. *)
Theorem offline_static_fractional_best :
  forall (C D : Type) (vmerge : C -> C -> outcome C) (merge : C -> C -> C) (outside : D)
         (nlopt : nl_problem -> outcome nl_result),
  exact_nlopt nlopt ->
  forall (sched : list Q -> split) (p : gsco Q C D),
  verify_sco p = Ok tt -> aligned (o_bounds p) -> computable vmerge p ->
  forall (s : split) (o : offline_options), fo_inverted o = false ->
  fo_l o = None \/ (exists q, fo_l o = Some q /\ (q == 0)%Q) ->
  exists x c, let xs := repeat x (Z.to_nat (o_tend p)) in
    offline_solve (sco_ops valQ merge vmerge outside s) (static_fractional_solver vmerge merge outside nlopt sched o) p = Ok (xs, c) /\
    grid (o_bounds p) x /\
    sco_objective valQ merge vmerge outside s p 1 xs = Ok c /\
    forall y, grid (o_bounds p) y -> exists a b,
      sco_objective valQ merge vmerge outside s p (fo_alpha o) xs = Ok a /\
      sco_objective valQ merge vmerge outside s p (fo_alpha o) (repeat y (Z.to_nat (o_tend p))) = Ok b /\
      ele (c_cost a) (c_cost b).
Proof. exact @static_fractional_solved. Qed.
Print Assumptions offline_static_fractional_best.

(** C82: streamed receding horizon control with this optimiser is (1 + c)-competitive against all
    schedules of multiples of 0.01. *)
Theorem rhc_nlopt_competitive :
  forall (C D : Type) (vmerge : C -> C -> outcome C) (merge : C -> C -> C) (outside : D)
         (sched : list Q -> split) (nlopt : nl_problem -> outcome nl_result),
  exact_nlopt nlopt ->
  forall (p : gssco Q C D) (hit : Z -> list Q -> ext) (e : list Q) (c : Q) (w : Z) (n : nat),
  verify_ssco valQ p = Ok tt -> g_tend p = 1 -> 0 <= w -> (1 <= n)%nat -> Forall hundredths (g_bounds p) ->
  (forall t x, 1 <= t <= Z.of_nat n -> within_bounds (g_bounds p) x ->
     exists o, call_predictive (g_cost p) t x = Ok [mkCost (hit t x) o]) ->
  (forall t, respects_eq eeq (hit t)) ->
  costly_operation hit (g_switching p) e (g_bounds p) c (Z.of_nat n) ->
  forall s : split,
  let ops := ssco_ops valQ merge vmerge outside s in
  let o := mkOnline p w in
  let o' := at_slot ops o (Z.of_nat n) in
  exists xs v,
    offline_stream ops (rhc_alg vmerge merge outside sched (window_minimize nlopt)) (fun _ => tt) (Z.of_nat n + w) o
      = Some (o', xs, Ok None) /\
    fractional_schedule (g_bounds p) (Z.of_nat n) xs /\ Forall (Forall hundredths) xs /\
    po_objective ops (on_p o') xs = Ok v /\
    forall ys, fractional_schedule (g_bounds p) (Z.of_nat n) ys -> Forall (Forall hundredths) ys ->
      exists v', po_objective ops (on_p o') ys = Ok v' /\ ele (c_cost v) (escale (1 + c) (c_cost v')).
Proof. exact @rhc_window. Qed.
Print Assumptions rhc_nlopt_competitive.

(** C82: streamed averaging fixed horizon control is (1 + c)^2-competitive if the hitting costs
    are convex. *)
Theorem afhc_nlopt_competitive :
  forall (C D : Type) (vmerge : C -> C -> outcome C) (merge : C -> C -> C) (outside : D)
         (sched : list Q -> split) (nlopt : nl_problem -> outcome nl_result),
  exact_nlopt nlopt ->
  forall (p : gssco Q C D) (hit : Z -> list Q -> ext) (e : list Q) (c : Q) (w : Z) (n : nat),
  verify_ssco valQ p = Ok tt -> g_tend p = 1 -> 0 <= w -> (1 <= n)%nat -> Forall hundredths (g_bounds p) ->
  (forall t x, 1 <= t <= Z.of_nat n -> within_bounds (g_bounds p) x ->
     exists o, call_predictive (g_cost p) t x = Ok [mkCost (hit t x) o]) ->
  (forall t, respects_eq eeq (hit t)) ->
  costly_operation hit (g_switching p) e (g_bounds p) c (Z.of_nat n) ->
  forall s : split, convex_hitting hit (g_bounds p) (Z.of_nat n) ->
  let ops := ssco_ops valQ merge vmerge outside s in
  let o := mkOnline p w in
  let o' := at_slot ops o (Z.of_nat n) in
  exists xs mem v,
    offline_stream ops (afhc_alg vmerge merge outside sched (window_minimize nlopt)) afhc_dflt (Z.of_nat n + w) o
      = Some (o', xs, Ok mem) /\
    fractional_schedule (g_bounds p) (Z.of_nat n) xs /\
    po_objective ops (on_p o') xs = Ok v /\
    forall ys, fractional_schedule (g_bounds p) (Z.of_nat n) ys -> Forall (Forall hundredths) ys ->
      exists v', po_objective ops (on_p o') ys = Ok v' /\ ele (c_cost v) (escale ((1 + c) * (1 + c)) (c_cost v')).
Proof. exact @afhc_window. Qed.
Print Assumptions afhc_nlopt_competitive.

(** C82: of the optima a user compares an online algorithm with, the fractional one is the least,
    the integral and the static fractional ones lie above it, and the static integral one above
    both. *)
Theorem offline_optima_ordered :
  forall (C D : Type) (vmerge : C -> C -> outcome C) (merge : C -> C -> C) (outside : D)
         (nlopt : nl_problem -> outcome nl_result),
  exact_nlopt nlopt ->
  forall (sched : list Q -> split) (search : Z -> vertice -> split) (splits : list Z -> split) (s : split)
         (p : gssco Z C D) (q : gssco Q C D),
  verify_ssco valZ p = Ok tt -> 1 <= g_tend p ->
  evaluable (gssco_hit valZ vmerge outside p) (g_tend p) (g_bounds p) ->
  capacity_suffices (gssco_hit valZ vmerge outside p) (g_tend p) (g_bounds p) ->
  same_problem vmerge outside p q -> fractional_costs vmerge outside q ->
  let fractional := into_sco valQ vmerge outside q in
  let integral := into_sco valZ vmerge outside p in
  exists xs a ys b zs c,
    offline_solve (sco_ops valQ merge vmerge outside s) (co_solver vmerge merge outside nlopt sched default_options) fractional = Ok (xs, a) /\
    offline_solve (ssco_ops valZ merge vmerge outside s) (optimal_search_ssco vmerge outside search default_options) p = Ok (ys, b) /\
    offline_solve (sco_ops valQ merge vmerge outside s) (static_fractional_solver vmerge merge outside nlopt sched default_options) fractional = Ok (zs, c) /\
    ele (c_cost a) (c_cost b) /\ ele (c_cost a) (c_cost c) /\
    forall ws d, offline_solve (sco_ops valZ merge vmerge outside s)
        (fun r => static_integral vmerge merge outside splits r false 1 None) integral = Ok (ws, d) ->
      ele (c_cost b) (c_cost d) /\ ele (c_cost c) (c_cost d).
Proof. exact @ordered_optima. Qed.
Print Assumptions offline_optima_ordered.

(** C82: likewise for the instances generated from a data centre with one type of servers. *)
Theorem one_type_optima_ordered :
  forall (powf : Q -> Q -> Q) (m : data_center) price power revenue (l : location) (st : server_type) minimize
         (nlopt : nl_problem -> outcome nl_result) (sched : list Q -> split) (search : Z -> vertice -> split)
         (splits : list Z -> split) (s : split) (loads : list (list Q)) (cap : Z)
         (p : gssco Z dc_success dc_failure) (fractional : gsco Q dc_success dc_failure) (integral : gsco Z dc_success dc_failure),
  one_type powf m price power revenue l st -> trivial_exact minimize -> exact_nlopt nlopt ->
  to_ssco powf m valZ (fun z => z) minimize loads = Ok p ->
  to_sco powf m valQ inject_Z minimize loads = Ok fractional ->
  to_sco powf m valZ (fun z => z) minimize loads = Ok integral ->
  loads <> [] -> Forall (profile m) loads -> lookup (lo_m l) (st_key st) = Ok cap ->
  positive_capacities m -> positive_switching m ->
  Forall (fun lambda => supported m st (inject_Z cap) (counted lambda)) loads ->
  exists xs a ys b zs c,
    offline_solve (sco_ops valQ dc_hmerge dc_vmerge OutsideDecisionSpace s)
      (co_solver dc_vmerge dc_hmerge OutsideDecisionSpace nlopt sched default_options) fractional = Ok (xs, a) /\
    offline_solve (ssco_ops valZ dc_hmerge dc_vmerge OutsideDecisionSpace s)
      (optimal_search_ssco dc_vmerge OutsideDecisionSpace search default_options) p = Ok (ys, b) /\
    offline_solve (sco_ops valQ dc_hmerge dc_vmerge OutsideDecisionSpace s)
      (static_fractional_solver dc_vmerge dc_hmerge OutsideDecisionSpace nlopt sched default_options) fractional = Ok (zs, c) /\
    is_fin (c_cost b) /\ ele (c_cost a) (c_cost b) /\ ele (c_cost a) (c_cost c) /\
    forall ws d, offline_solve (sco_ops valZ dc_hmerge dc_vmerge OutsideDecisionSpace s)
        (fun r => static_integral dc_vmerge dc_hmerge OutsideDecisionSpace splits r false 1 None) integral = Ok (ws, d) ->
      ele (c_cost b) (c_cost d) /\ ele (c_cost c) (c_cost d).
Proof. exact one_type_ordered. Qed.
Print Assumptions one_type_optima_ordered.
