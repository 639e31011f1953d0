(** Properties of data centres with one location and one type of servers.  Definitions: OneTypeSpec.v. *)
From Verif Require Import CostSpec VerifySpec CapacityModel CapacitySpec OfflineSpec Offline1DModel Offline1DProofs OneTypeSpec OneTypeConvex OneTypeCosts OneTypeEnd.
From Verif Require Import ProblemModel CostModel.
Local Open Scope Z_scope.

(** C81: a configuration of the generated instance costs the priced energy and the lost revenue of
    the active servers, and infinitely much exactly if they cannot process the load.  (Of every
    load only its share in the total load is counted, see [counted].) *)
Theorem one_type_cost_partial :
  forall (powf : Q -> Q -> Q) (m : data_center) price power revenue (l : location) (st : server_type) minimize
         (T : Type) (v : value T) (ofZ : Z -> T) (loads : list (list Q)) (p : gssco T dc_success dc_failure)
         (t : Z) (y : T) (lambda : list Q),
  one_type powf m price power revenue l st -> trivial_exact minimize ->
  to_ssco powf m v ofZ minimize loads = Ok p -> Forall (profile m) loads -> (v_toQ v (v_zero v) == 0)%Q ->
  1 <= t -> nth_error loads (Z.to_nat (t - 1)) = Some lambda -> in_box v (g_bounds p) [y] ->
  exists c, gssco_hit v dc_vmerge OutsideDecisionSpace p t [y] = Ok c /\
    (supported m st (v_toQ v y) (counted lambda) ->
       exists q, c_cost c = Fin q /\ (q == active_cost m price power revenue l st t (counted lambda) (v_toQ v y))%Q) /\
    (~ supported m st (v_toQ v y) (counted lambda) -> c_cost c = Inf).
Proof. exact (fun powf m price power revenue l st minimize T v ofZ loads p t y lambda HO HM => one_type_cost_proof powf m price power revenue l st HO minimize HM T v ofZ loads p t y lambda). Qed.
Print Assumptions one_type_cost_partial.

(** C81: with one source and one job type, all of the load is counted. *)
Theorem single_load_counted :
  forall (m : data_center) (st : server_type) (x lambda : Q),
  supported m st x (counted [lambda]) <-> supported m st x [lambda].
Proof. exact single_supported. Qed.
Print Assumptions single_load_counted.

(** C81: the costs are convex, not negative, and finite for all larger configurations once they
    are finite for one. *)
Theorem one_type_convex :
  forall (powf : Q -> Q -> Q) (m : data_center) price power revenue (l : location) (st : server_type) minimize
         (loads : list (list Q)) (p : gssco Z dc_success dc_failure) (cap t : Z),
  one_type powf m price power revenue l st -> trivial_exact minimize ->
  to_ssco powf m valZ (fun z => z) minimize loads = Ok p -> Forall (profile m) loads ->
  g_bounds p = [cap] -> 1 <= t <= g_tend p ->
  let f := fun j => cost_of (gssco_hit valZ dc_vmerge OutsideDecisionSpace p t [j]) in
  convex_on cap f /\ (forall j, 0 <= j <= cap -> ele (Fin 0) (f j)) /\
  (forall i j, 0 <= i <= j -> j <= cap -> is_fin (f i) -> is_fin (f j)).
Proof. exact (fun powf m price power revenue l st minimize loads p cap t HO HM => one_type_convexZ powf m price power revenue l st HO minimize HM loads p cap t). Qed.
Print Assumptions one_type_convex.

Theorem one_type_convex_fractional :
  forall (powf : Q -> Q -> Q) (m : data_center) price power revenue (l : location) (st : server_type) minimize
         (ofZ : Z -> Q) (loads : list (list Q)) (p : gssco Q dc_success dc_failure) (cap : Q) (t : Z),
  one_type powf m price power revenue l st -> trivial_exact minimize ->
  to_ssco powf m valQ ofZ minimize loads = Ok p -> Forall (profile m) loads ->
  g_bounds p = [cap] -> 1 <= t <= g_tend p ->
  let f := fun x => cost_of (gssco_hit valQ dc_vmerge OutsideDecisionSpace p t [x]) in
  convex_onQ cap f /\ (forall x, (0 <= x <= cap)%Q -> ele (Fin 0) (f x)) /\
  (forall x y, (0 <= x)%Q -> (x <= y)%Q -> (y <= cap)%Q -> is_fin (f x) -> is_fin (f y)).
Proof. exact (fun powf m price power revenue l st minimize ofZ loads p cap t HO HM => one_type_convexQ powf m price power revenue l st HO minimize HM ofZ loads p cap t). Qed.
Print Assumptions one_type_convex_fractional.

(** C81: the linear and the simplified consumption model are convex; the non-linear one is if the
    power function is. *)
Theorem consumption_models_convex :
  forall (powf : Q -> Q -> Q) (cm : consumption_model) (delta : Q) (st : server_type) (power : Q -> Q),
  (0 <= delta)%Q -> (forall s, consumption powf cm delta st s = Ok (power s)) ->
  (forall models phi_min alpha a, cm = CNonLinear models -> lookup models (st_key st) = Ok (phi_min, alpha, a) ->
     (0 < a)%Q /\ convex_power (fun s => powf s alpha)) ->
  convex_power power.
Proof. exact consumption_convex. Qed.
Print Assumptions consumption_models_convex.

(** C72: solving a valid instance with convex costs by the one-dimensional graph search yields a
    schedule of least cost, and its cost. *)
Theorem offline_search_1d_optimal :
  forall (C D : Type) (merge : C -> C -> C) vmerge (outside : D) (s : split) (p : gssco Z C D) (m : Z) (o : offline_options),
  let hit := gssco_hit valZ vmerge outside p in
  verify_ssco valZ p = Ok tt -> g_bounds p = [m] ->
  evaluable hit (g_tend p) (g_bounds p) -> capacity_suffices hit (g_tend p) (g_bounds p) ->
  (forall t, 1 <= t <= g_tend p -> convex_on m (fun j => cost_of (hit t [j]))) ->
  (forall t j, 1 <= t <= g_tend p -> 0 <= j <= m -> ele (Fin 0) (cost_of (hit t [j]))) ->
  (0 <= fo_alpha o)%Q -> fo_l o = None -> fo_inverted o = false ->
  exists xs c,
    offline_solve (ssco_ops valZ merge vmerge outside s) (search_1d_ssco vmerge outside o) p = Ok (xs, c) /\
    ssco_objective merge vmerge outside s p 1 xs = Ok c /\ is_fin (c_cost c) /\
    cheapest (ssco_objective merge vmerge outside s p (fo_alpha o)) (g_tend p) (g_bounds p) xs.
Proof. exact @search_1d_solved. Qed.
Print Assumptions offline_search_1d_optimal.

(** C72: likewise with backward-recurrent capacity provisioning, if its optimiser is exact. *)
Theorem offline_brcp_optimal :
  forall (C D : Type) (merge : C -> C -> C) vmerge (outside : D) (s sched : split)
         (minimizer : (list Q -> outcome ext) -> list (Q * Q) -> outcome (list Q))
         (p : gssco Q C D) (m beta : Q) (f : Z -> Q -> ext),
  verify_ssco valQ p = Ok tt -> g_bounds p = [m] -> g_switching p = [beta] -> capacity_costsQ m f beta ->
  (forall t x, 1 <= t <= g_tend p -> (0 <= x <= m)%Q ->
     (exists c, call_mean vmerge (g_cost p) t [x] = Ok c /\ eeq (c_cost c) (f t x)) /\
     (forall rs, call_predictive (g_cost p) t [x] = Ok rs -> length rs = 1%nat)) ->
  forall o, (0 <= fo_alpha o)%Q -> fo_l o = None -> fo_inverted o = false ->
  (forall inv n, (1 <= n)%nat -> Z.of_nat n <= g_tend p ->
     exact_answer minimizer
       (bound_objective vmerge merge outside sched (gssco_extend (ssco_reset p 0) 0) (fo_alpha o) inv 0 (Z.of_nat n) 0)
       (repeat (0%Q, m) n)) ->
  exists xs c,
    offline_solve (ssco_ops valQ merge vmerge outside s) (brcp_ssco vmerge outside merge sched minimizer o) p = Ok (xs, c) /\
    objective_1dQ merge vmerge outside s p 1 xs = Ok c /\ is_fin (c_cost c) /\
    cheapest_1dQ (objective_1dQ merge vmerge outside s p (fo_alpha o)) (g_tend p) m xs.
Proof. exact @brcp_solved. Qed.
Print Assumptions offline_brcp_optimal.

(** C81: the one-dimensional graph search finds a schedule of least cost for the data centre, if
    all servers together can process the load of every slot. *)
Theorem one_type_search_optimal :
  forall (powf : Q -> Q -> Q) (m : data_center) price power revenue (l : location) (st : server_type) minimize
         (s : split) (o : offline_options) (loads : list (list Q)) (p : gssco Z dc_success dc_failure) (cap : Z),
  one_type powf m price power revenue l st -> trivial_exact minimize ->
  to_ssco powf m valZ (fun z => z) minimize loads = Ok p -> Forall (profile m) loads ->
  lookup (lo_m l) (st_key st) = Ok cap -> positive_capacities m -> positive_switching m ->
  Forall (fun lambda => supported m st (inject_Z cap) (counted lambda)) loads ->
  (0 <= fo_alpha o)%Q -> fo_l o = None -> fo_inverted o = false ->
  exists xs c,
    offline_solve (ssco_ops valZ dc_hmerge dc_vmerge OutsideDecisionSpace s)
      (search_1d_ssco dc_vmerge OutsideDecisionSpace o) p = Ok (xs, c) /\
    ssco_objective dc_hmerge dc_vmerge OutsideDecisionSpace s p 1 xs = Ok c /\ is_fin (c_cost c) /\
    cheapest (ssco_objective dc_hmerge dc_vmerge OutsideDecisionSpace s p (fo_alpha o)) (Z.of_nat (length loads)) [cap] xs.
Proof. exact (fun powf m price power revenue l st minimize s o loads p cap HO HM => one_type_searched powf m price power revenue l st HO minimize HM s o loads p cap). Qed.
Print Assumptions one_type_search_optimal.

(** C81: so does backward-recurrent capacity provisioning among the fractional schedules, if its
    optimiser is exact. *)
Theorem one_type_brcp_optimal :
  forall (powf : Q -> Q -> Q) (m : data_center) price power revenue (l : location) (st : server_type) minimize
         (s sched : split) minimizer (o : offline_options) (loads : list (list Q)) (p : gssco Q dc_success dc_failure) (cap : Z),
  one_type powf m price power revenue l st -> trivial_exact minimize ->
  to_ssco powf m valQ inject_Z minimize loads = Ok p -> Forall (profile m) loads ->
  lookup (lo_m l) (st_key st) = Ok cap -> positive_capacities m -> positive_switching m ->
  Forall (fun lambda => supported m st (inject_Z cap) (counted lambda)) loads ->
  (0 <= fo_alpha o)%Q -> fo_l o = None -> fo_inverted o = false ->
  (forall inv n, (1 <= n)%nat -> (n <= length loads)%nat ->
     exact_answer minimizer
       (bound_objective dc_vmerge dc_hmerge OutsideDecisionSpace sched (gssco_extend (ssco_reset p 0) 0) (fo_alpha o) inv 0 (Z.of_nat n) 0)
       (repeat (0%Q, inject_Z cap) n)) ->
  exists xs c,
    offline_solve (ssco_ops valQ dc_hmerge dc_vmerge OutsideDecisionSpace s)
      (brcp_ssco dc_vmerge OutsideDecisionSpace dc_hmerge sched minimizer o) p = Ok (xs, c) /\
    objective_1dQ dc_hmerge dc_vmerge OutsideDecisionSpace s p 1 xs = Ok c /\ is_fin (c_cost c) /\
    cheapest_1dQ (objective_1dQ dc_hmerge dc_vmerge OutsideDecisionSpace s p (fo_alpha o)) (Z.of_nat (length loads)) (inject_Z cap) xs.
Proof. exact (fun powf m price power revenue l st minimize s sched minimizer o loads p cap HO HM => one_type_brcp powf m price power revenue l st HO minimize HM s sched minimizer o loads p cap). Qed.
Print Assumptions one_type_brcp_optimal.

(** C81: lazy capacity provisioning costs at most three times as much as any schedule, after every
    number of slots. *)
Theorem one_type_lcp_competitive :
  forall (powf : Q -> Q -> Q) (m : data_center) price power revenue (l : location) (st : server_type) minimize
         (cap : Z) (beta : Q) (loads : Z -> list Q),
  one_type powf m price power revenue l st -> trivial_exact minimize ->
  0 <= cap -> (0 <= beta)%Q -> (forall t, profile m (loads t)) ->
  (forall t, supported m st (inject_Z cap) (counted (loads t))) ->
  let p := load_stream powf m minimize cap beta loads in
  let hit := fun (t : Z) (x : list Z) => c_cost (s_hit p t x) in
  forall (n : nat) ys, feasible_schedule (Z.of_nat n) [cap] ys ->
  exists xs mem, integral_lcp OutsideDecisionSpace p 0 n = Ok (xs, mem) /\
    feasible_schedule (Z.of_nat n) [cap] xs /\
    ele (total_cost hit (switching [beta] false) 1 1 [0] xs)
        (escale 3 (total_cost hit (switching [beta] false) 1 1 [0] ys)).
Proof. exact (fun powf m price power revenue l st minimize cap beta loads HO HM => one_type_lcp powf m price power revenue l st HO minimize HM cap beta loads). Qed.
Print Assumptions one_type_lcp_competitive.
