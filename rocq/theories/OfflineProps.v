(** Properties of solving offline problems: verification, algorithm and reported cost together.
    Definitions: OfflineSpec.v. *)
From Verif Require Import VerifySpec BudgetSpec OfflineSpec OfflineFail OfflineEnd OfflineEndLoads OfflineMore OfflineDefault OfflineStatic StaticSpec StreamSpec.
From Verif Require Import CostModel.
Local Open Scope Z_scope.

(** Solving a valid SSCO instance yields a feasible schedule of least alpha-unfair cost, together
    with its (finite) cost. *)
Theorem offline_ssco_optimal_partial :
  forall (C D : Type) (merge : C -> C -> C) vmerge (outside : D) (s : split) sched (o : offline_options) (p : gssco Z C D),
  verify_ssco valZ p = Ok tt -> 1 <= g_tend p ->
  evaluable (gssco_hit valZ vmerge outside p) (g_tend p) (g_bounds p) ->
  capacity_suffices (gssco_hit valZ vmerge outside p) (g_tend p) (g_bounds p) ->
  (0 <= fo_alpha o)%Q -> fo_l o = None ->
  exists xs c,
    offline_solve (ssco_ops valZ merge vmerge outside s) (optimal_search_ssco vmerge outside sched o) p = Ok (xs, c) /\
    ssco_objective merge vmerge outside s p 1 xs = Ok c /\ is_fin (c_cost c) /\
    cheapest (ssco_objective merge vmerge outside s p (fo_alpha o)) (g_tend p) (g_bounds p) xs.
Proof. exact @ssco_solved. Qed.
Print Assumptions offline_ssco_optimal_partial.

(** An answer is given exactly if there is a slot and full capacity has a finite cost in every
    slot; otherwise solving panics. *)
Theorem offline_ssco_answers :
  forall (C D : Type) (merge : C -> C -> C) vmerge (outside : D) (s : split) sched (o : offline_options) (p : gssco Z C D),
  verify_ssco valZ p = Ok tt ->
  evaluable (gssco_hit valZ vmerge outside p) (g_tend p) (g_bounds p) ->
  (0 <= fo_alpha o)%Q -> fo_l o = None ->
  let r := offline_solve (ssco_ops valZ merge vmerge outside s) (optimal_search_ssco vmerge outside sched o) p in
  let usable := 1 <= g_tend p /\ capacity_suffices (gssco_hit valZ vmerge outside p) (g_tend p) (g_bounds p) in
  ((exists xs c, r = Ok (xs, c)) <-> usable) /\ (~ usable -> r = Panic).
Proof. exact @ssco_answers. Qed.
Print Assumptions offline_ssco_answers.

(** Invalid instances are rejected, as are limits on the movement. *)
Theorem offline_rejects :
  forall (C D : Type) (merge : C -> C -> C) vmerge (outside : D) (s : split) sched (o : offline_options) (p : gssco Z C D),
  let r := offline_solve (ssco_ops valZ merge vmerge outside s) (optimal_search_ssco vmerge outside sched o) p in
  (~ well_formed_ssco valZ p -> r = Err Invalid) /\
  (well_formed_ssco valZ p -> forall l, fo_l o = Some l -> r = Err UnsupportedLConstrainedMovement).
Proof. exact @ssco_rejects. Qed.
Print Assumptions offline_rejects.

(** Likewise for SBLO. *)
Theorem offline_sblo_optimal_partial :
  forall minimize (s : split) sched (o : offline_options) (p : gsblo Z),
  verify_sblo valZ p = Ok tt -> 1 <= b_tend p ->
  evaluable (sblo_hit valZ minimize p) (b_tend p) (b_bounds p) ->
  capacity_suffices (sblo_hit valZ minimize p) (b_tend p) (b_bounds p) ->
  (0 <= fo_alpha o)%Q -> fo_l o = None ->
  exists xs c,
    offline_solve (sblo_ops minimize s) (optimal_search_sblo minimize sched o) p = Ok (xs, c) /\
    sblo_objective_fn minimize s p 1 xs = Ok c /\ is_fin (c_cost c) /\
    cheapest (sblo_objective_fn minimize s p (fo_alpha o)) (b_tend p) (b_bounds p) xs.
Proof. exact sblo_solved. Qed.
Print Assumptions offline_sblo_optimal_partial.

Theorem offline_sblo_answers :
  forall minimize (s : split) sched (o : offline_options) (p : gsblo Z),
  verify_sblo valZ p = Ok tt -> evaluable (sblo_hit valZ minimize p) (b_tend p) (b_bounds p) ->
  (0 <= fo_alpha o)%Q -> fo_l o = None ->
  let r := offline_solve (sblo_ops minimize s) (optimal_search_sblo minimize sched o) p in
  let usable := 1 <= b_tend p /\ capacity_suffices (sblo_hit valZ minimize p) (b_tend p) (b_bounds p) in
  ((exists xs c, r = Ok (xs, c)) <-> usable) /\ (~ usable -> r = Panic).
Proof. exact sblo_answers. Qed.
Print Assumptions offline_sblo_answers.

(** For SLO, the schedule covers every load, its reported cost is the cost in the SLO problem, and
    it is the cheapest among the schedules for which the numerical solver finds an assignment. *)
Theorem offline_slo_optimal_partial :
  forall minimize (s : split) sched (o : offline_options) (p : gslo Z),
  verify_slo valZ p = Ok tt -> Z.of_nat (length (l_hitting p)) = l_d p -> 1 <= l_tend p ->
  solver_reports minimize ->
  evaluable (sblo_hit valZ minimize (into_sblo p)) (l_tend p) (l_bounds p) ->
  capacity_suffices (sblo_hit valZ minimize (into_sblo p)) (l_tend p) (l_bounds p) ->
  (0 <= fo_alpha o)%Q -> fo_l o = None ->
  exists xs c,
    offline_solve (slo_ops s) (optimal_search_slo minimize sched o) p = Ok (xs, c) /\
    slo_objective_fn s p 1 xs = Ok c /\ is_fin (c_cost c) /\ covers p xs /\ assignable minimize p xs /\
    cheapest_among (assignable minimize p) (slo_objective_fn s p (fo_alpha o)) (l_tend p) (l_bounds p) xs.
Proof. exact slo_solved. Qed.
Print Assumptions offline_slo_optimal_partial.

Theorem offline_slo_answers :
  forall minimize (s : split) sched (o : offline_options) (p : gslo Z),
  verify_slo valZ p = Ok tt -> Z.of_nat (length (l_hitting p)) = l_d p -> solver_reports minimize ->
  evaluable (sblo_hit valZ minimize (into_sblo p)) (l_tend p) (l_bounds p) ->
  (0 <= fo_alpha o)%Q -> fo_l o = None ->
  let r := offline_solve (slo_ops s) (optimal_search_slo minimize sched o) p in
  let usable := 1 <= l_tend p /\ capacity_suffices (sblo_hit valZ minimize (into_sblo p)) (l_tend p) (l_bounds p) in
  ((exists xs c, r = Ok (xs, c)) <-> usable) /\ (~ usable -> r = Panic).
Proof. exact slo_answers. Qed.
Print Assumptions offline_slo_answers.

(** With a single type of servers it is the cheapest schedule of all, if the servers suffice for
    every load. *)
Theorem offline_slo_single_type :
  forall minimize (s : split) sched (o : offline_options) (p : gslo Z),
  verify_slo valZ p = Ok tt -> l_d p = 1 -> Z.of_nat (length (l_hitting p)) = 1 -> 1 <= l_tend p ->
  solver_reports minimize ->
  evaluable (sblo_hit valZ minimize (into_sblo p)) (l_tend p) (l_bounds p) ->
  (forall t l, 1 <= t <= l_tend p -> access (l_load p) t = Some l -> l <= hd 0 (l_bounds p)) ->
  (0 <= fo_alpha o)%Q -> fo_l o = None ->
  exists xs c,
    offline_solve (slo_ops s) (optimal_search_slo minimize sched o) p = Ok (xs, c) /\
    slo_objective_fn s p 1 xs = Ok c /\ is_fin (c_cost c) /\ covers p xs /\
    cheapest (slo_objective_fn s p (fo_alpha o)) (l_tend p) (l_bounds p) xs.
Proof. exact slo_single. Qed.
Print Assumptions offline_slo_single_type.

(** The approximate search is within the factor 2*gamma - 1. *)
Theorem offline_ssco_approximate :
  forall (C D : Type) (merge : C -> C -> C) vmerge (outside : D) (s : split) (gamma : Q) (o : offline_options) (p : gssco Z C D),
  verify_ssco valZ p = Ok tt -> 1 <= g_tend p ->
  evaluable (gssco_hit valZ vmerge outside p) (g_tend p) (g_bounds p) ->
  capacity_suffices (gssco_hit valZ vmerge outside p) (g_tend p) (g_bounds p) ->
  scales_at_most (2 * gamma - 1) (gssco_hit valZ vmerge outside p) (g_tend p) (g_bounds p) ->
  (1 < gamma)%Q -> (0 <= fo_alpha o)%Q -> fo_l o = None ->
  exists N, forall sched fuel, (N <= fuel)%nat -> exists xs c,
    offline_solve (ssco_ops valZ merge vmerge outside s) (approx_search_ssco vmerge outside sched fuel gamma o) p = Ok (xs, c) /\
    ssco_objective merge vmerge outside s p 1 xs = Ok c /\ is_fin (c_cost c) /\
    cheapest_within (2 * gamma - 1) (ssco_objective merge vmerge outside s p (fo_alpha o)) (g_tend p) (g_bounds p) xs.
Proof. exact @ssco_approximated. Qed.
Print Assumptions offline_ssco_approximate.

(** For SBLO this needs server costs that do not decrease in the load and a solver that finds the
    best division of the load. *)
Theorem offline_sblo_approximate :
  forall minimize (s : split) (gamma : Q) (o : offline_options) (p : gsblo Z),
  verify_sblo valZ p = Ok tt -> 1 <= b_tend p ->
  evaluable (sblo_hit valZ minimize p) (b_tend p) (b_bounds p) ->
  capacity_suffices (sblo_hit valZ minimize p) (b_tend p) (b_bounds p) ->
  regular_costs p -> assigns_best minimize p ->
  (1 < gamma)%Q -> (0 <= fo_alpha o)%Q -> fo_l o = None ->
  exists N, forall sched fuel, (N <= fuel)%nat -> exists xs c,
    offline_solve (sblo_ops minimize s) (approx_search_sblo minimize sched fuel gamma o) p = Ok (xs, c) /\
    sblo_objective_fn minimize s p 1 xs = Ok c /\ is_fin (c_cost c) /\
    cheapest_within (2 * gamma - 1) (sblo_objective_fn minimize s p (fo_alpha o)) (b_tend p) (b_bounds p) xs.
Proof. exact sblo_approximated. Qed.
Print Assumptions offline_sblo_approximate.

(** So is the one for SLO, among the schedules for which the solver finds an assignment. *)
Theorem offline_slo_approximate :
  forall minimize (s : split) (gamma : Q) (o : offline_options) (p : gslo Z),
  verify_slo valZ p = Ok tt -> Z.of_nat (length (l_hitting p)) = l_d p -> 1 <= l_tend p ->
  solver_reports minimize ->
  evaluable (sblo_hit valZ minimize (into_sblo p)) (l_tend p) (l_bounds p) ->
  capacity_suffices (sblo_hit valZ minimize (into_sblo p)) (l_tend p) (l_bounds p) ->
  assigns_best minimize (into_sblo p) ->
  (1 < gamma)%Q -> (0 <= fo_alpha o)%Q -> fo_l o = None ->
  exists N, forall sched fuel, (N <= fuel)%nat -> exists xs c,
    offline_solve (slo_ops s) (approx_search_slo minimize sched fuel gamma o) p = Ok (xs, c) /\
    slo_objective_fn s p 1 xs = Ok c /\ is_fin (c_cost c) /\ covers p xs /\ assignable minimize p xs /\
    cheapest_within_among (2 * gamma - 1) (assignable minimize p) (slo_objective_fn s p (fo_alpha o)) (l_tend p) (l_bounds p) xs.
Proof. exact slo_approximated. Qed.
Print Assumptions offline_slo_approximate.

(** With its default parameter and the default options, the approximate search is within the factor 1.2. *)
Theorem offline_ssco_default :
  forall (C D : Type) (merge : C -> C -> C) vmerge (outside : D) (s : split) (p : gssco Z C D),
  verify_ssco valZ p = Ok tt -> 1 <= g_tend p ->
  evaluable (gssco_hit valZ vmerge outside p) (g_tend p) (g_bounds p) ->
  capacity_suffices (gssco_hit valZ vmerge outside p) (g_tend p) (g_bounds p) ->
  scales_at_most (12 # 10) (gssco_hit valZ vmerge outside p) (g_tend p) (g_bounds p) ->
  exists N, forall sched fuel, (N <= fuel)%nat -> exists xs c,
    offline_solve (ssco_ops valZ merge vmerge outside s) (approx_search_ssco vmerge outside sched fuel default_gamma default_options) p = Ok (xs, c) /\
    ssco_objective merge vmerge outside s p 1 xs = Ok c /\ is_fin (c_cost c) /\
    cheapest_within (12 # 10) (ssco_objective merge vmerge outside s p 1) (g_tend p) (g_bounds p) xs.
Proof. exact @ssco_default. Qed.
Print Assumptions offline_ssco_default.

Theorem offline_sblo_default :
  forall minimize (s : split) (p : gsblo Z),
  verify_sblo valZ p = Ok tt -> 1 <= b_tend p ->
  evaluable (sblo_hit valZ minimize p) (b_tend p) (b_bounds p) ->
  capacity_suffices (sblo_hit valZ minimize p) (b_tend p) (b_bounds p) ->
  regular_costs p -> assigns_best minimize p ->
  exists N, forall sched fuel, (N <= fuel)%nat -> exists xs c,
    offline_solve (sblo_ops minimize s) (approx_search_sblo minimize sched fuel default_gamma default_options) p = Ok (xs, c) /\
    sblo_objective_fn minimize s p 1 xs = Ok c /\ is_fin (c_cost c) /\
    cheapest_within (12 # 10) (sblo_objective_fn minimize s p 1) (b_tend p) (b_bounds p) xs.
Proof. exact sblo_default. Qed.
Print Assumptions offline_sblo_default.

Theorem offline_slo_default :
  forall minimize (s : split) (p : gslo Z),
  verify_slo valZ p = Ok tt -> Z.of_nat (length (l_hitting p)) = l_d p -> 1 <= l_tend p ->
  solver_reports minimize ->
  evaluable (sblo_hit valZ minimize (into_sblo p)) (l_tend p) (l_bounds p) ->
  capacity_suffices (sblo_hit valZ minimize (into_sblo p)) (l_tend p) (l_bounds p) ->
  assigns_best minimize (into_sblo p) ->
  exists N, forall sched fuel, (N <= fuel)%nat -> exists xs c,
    offline_solve (slo_ops s) (approx_search_slo minimize sched fuel default_gamma default_options) p = Ok (xs, c) /\
    slo_objective_fn s p 1 xs = Ok c /\ is_fin (c_cost c) /\ covers p xs /\ assignable minimize p xs /\
    cheapest_within_among (12 # 10) (assignable minimize p) (slo_objective_fn s p 1) (l_tend p) (l_bounds p) xs.
Proof. exact slo_default. Qed.
Print Assumptions offline_slo_default.

(** Invalid load problems and limits on the movement are rejected, too. *)
Theorem offline_sblo_rejects :
  forall minimize (s : split) sched (o : offline_options) (p : gsblo Z),
  let r := offline_solve (sblo_ops minimize s) (optimal_search_sblo minimize sched o) p in
  (~ well_formed_sblo valZ p -> r = Err Invalid) /\
  (well_formed_sblo valZ p -> forall l, fo_l o = Some l -> r = Err UnsupportedLConstrainedMovement).
Proof. exact sblo_rejects. Qed.
Print Assumptions offline_sblo_rejects.

Theorem offline_slo_rejects :
  forall minimize (s : split) sched (o : offline_options) (p : gslo Z),
  Z.of_nat (length (l_hitting p)) = l_d p ->
  let r := offline_solve (slo_ops s) (optimal_search_slo minimize sched o) p in
  (~ well_formed_slo valZ p -> r = Err Invalid) /\
  (well_formed_slo valZ p -> forall l, fo_l o = Some l -> r = Err UnsupportedLConstrainedMovement).
Proof. exact slo_rejects. Qed.
Print Assumptions offline_slo_rejects.

(** The named options: by default the cost itself is minimised, [alpha_unfair alpha] minimises the
    alpha-unfair cost, and [l_constrained] is answered with an error. *)
Theorem offline_options_meaning :
  forall (C D : Type) (merge : C -> C -> C) vmerge (outside : D) (s : split) sched (p : gssco Z C D),
  verify_ssco valZ p = Ok tt -> 1 <= g_tend p ->
  evaluable (gssco_hit valZ vmerge outside p) (g_tend p) (g_bounds p) ->
  capacity_suffices (gssco_hit valZ vmerge outside p) (g_tend p) (g_bounds p) ->
  let solve o := offline_solve (ssco_ops valZ merge vmerge outside s) (optimal_search_ssco vmerge outside sched o) p in
  let best alpha xs := cheapest (ssco_objective merge vmerge outside s p alpha) (g_tend p) (g_bounds p) xs in
  (exists xs c, solve default_options = Ok (xs, c) /\ best 1%Q xs) /\
  (exists xs c, solve inverted_options = Ok (xs, c) /\ best 1%Q xs) /\
  (forall alpha, (0 <= alpha)%Q -> exists xs c, solve (alpha_unfair alpha) = Ok (xs, c) /\ best alpha xs) /\
  (forall l, solve (l_constrained l) = Err UnsupportedLConstrainedMovement).
Proof. exact @ssco_options. Qed.
Print Assumptions offline_options_meaning.

(** The operations on load problems obey the laws assumed of problems in StreamProps.v. *)
Theorem offline_load_ops_lawful :
  forall minimize s, lawful_ops (sblo_ops minimize s) /\ lawful_ops (slo_ops s).
Proof. exact load_ops_lawful. Qed.
Print Assumptions offline_load_ops_lawful.

(** *** The static integral algorithm *)

(** For SBLO: if the cost of keeping a configuration is unimodal in every dimension (after
    minimising over the later ones) the answer is the best schedule keeping a configuration. *)
Theorem offline_static_sblo :
  forall minimize (s : split) splits (o : offline_options) (p : gsblo Z),
  verify_sblo valZ p = Ok tt ->
  evaluable (sblo_hit valZ minimize p) (b_tend p) (b_bounds p) ->
  let value := static_value (sblo_objective_fn minimize s p 1) (b_tend p) in
  nested_unimodal (map (fun u => (0, u)) (b_bounds p)) value ->
  (exists y, feasible_config (b_bounds p) y /\ is_fin (value y)) ->
  fo_inverted o = false -> (fo_l o = None \/ exists q, fo_l o = Some q /\ (q == 0)%Q) ->
  exists xs c,
    offline_solve (sblo_ops minimize s) (static_integral_sblo minimize splits o) p = Ok (xs, c) /\
    sblo_objective_fn minimize s p 1 xs = Ok c /\ is_fin (c_cost c) /\ constant (b_tend p) xs /\
    cheapest_among (constant (b_tend p)) (sblo_objective_fn minimize s p 1) (b_tend p) (b_bounds p) xs.
Proof. exact sblo_static. Qed.
Print Assumptions offline_static_sblo.

(** Likewise for SLO, among the schedules for which the solver finds an assignment. *)
Theorem offline_static_slo :
  forall minimize (s : split) splits (o : offline_options) (p : gslo Z),
  verify_slo valZ p = Ok tt -> Z.of_nat (length (l_hitting p)) = l_d p -> solver_reports minimize ->
  evaluable (sblo_hit valZ minimize (into_sblo p)) (l_tend p) (l_bounds p) ->
  let value := static_value (sblo_objective_fn minimize s (into_sblo p) 1) (l_tend p) in
  nested_unimodal (map (fun u => (0, u)) (l_bounds p)) value ->
  (exists y, feasible_config (l_bounds p) y /\ is_fin (value y)) ->
  fo_inverted o = false -> (fo_l o = None \/ exists q, fo_l o = Some q /\ (q == 0)%Q) ->
  exists xs c,
    offline_solve (slo_ops s) (static_integral_slo minimize splits o) p = Ok (xs, c) /\
    slo_objective_fn s p 1 xs = Ok c /\ is_fin (c_cost c) /\ constant (l_tend p) xs /\ covers p xs /\
    cheapest_among (fun ys => constant (l_tend p) ys /\ assignable minimize p ys) (slo_objective_fn s p 1) (l_tend p) (l_bounds p) xs.
Proof. exact slo_static. Qed.
Print Assumptions offline_static_slo.

(** With a single type of servers the best of all schedules keeping a configuration is found. *)
Theorem offline_static_slo_single :
  forall minimize (s : split) splits (o : offline_options) (p : gslo Z),
  verify_slo valZ p = Ok tt -> l_d p = 1 -> Z.of_nat (length (l_hitting p)) = 1 -> solver_reports minimize ->
  evaluable (sblo_hit valZ minimize (into_sblo p)) (l_tend p) (l_bounds p) ->
  (forall t l, 1 <= t <= l_tend p -> access (l_load p) t = Some l -> l <= hd 0 (l_bounds p)) ->
  fo_inverted o = false -> (fo_l o = None \/ exists q, fo_l o = Some q /\ (q == 0)%Q) ->
  exists xs c,
    offline_solve (slo_ops s) (static_integral_slo minimize splits o) p = Ok (xs, c) /\
    slo_objective_fn s p 1 xs = Ok c /\ is_fin (c_cost c) /\ constant (l_tend p) xs /\ covers p xs /\
    cheapest_among (constant (l_tend p)) (slo_objective_fn s p 1) (l_tend p) (l_bounds p) xs.
Proof. exact slo_static_single. Qed.
Print Assumptions offline_static_slo_single.

(** Invalid instances and unsupported options are rejected. *)
Theorem offline_static_rejects :
  forall minimize (s : split) splits (o : offline_options) (p : gsblo Z),
  let r := offline_solve (sblo_ops minimize s) (static_integral_sblo minimize splits o) p in
  (~ well_formed_sblo valZ p -> r = Err Invalid) /\
  (well_formed_sblo valZ p -> fo_inverted o = true -> r = Err UnsupportedInvertedCost) /\
  (well_formed_sblo valZ p -> fo_inverted o = false -> forall l, fo_l o = Some l -> ~ (l == 0)%Q ->
     r = Err UnsupportedLConstrainedMovement).
Proof. exact sblo_static_rejects. Qed.
Print Assumptions offline_static_rejects.

(** The named options: inverted movement and limits are rejected, the other ones are not. *)
Theorem offline_static_options :
  forall minimize (s : split) splits (p : gslo Z),
  verify_slo valZ p = Ok tt -> l_d p = 1 -> Z.of_nat (length (l_hitting p)) = 1 -> solver_reports minimize ->
  evaluable (sblo_hit valZ minimize (into_sblo p)) (l_tend p) (l_bounds p) ->
  (forall t l, 1 <= t <= l_tend p -> access (l_load p) t = Some l -> l <= hd 0 (l_bounds p)) ->
  let solve o := offline_solve (slo_ops s) (static_integral_slo minimize splits o) p in
  (exists xs c, solve default_options = Ok (xs, c)) /\
  (forall alpha, exists xs c, solve (alpha_unfair alpha) = Ok (xs, c)) /\
  solve inverted_options = Err UnsupportedInvertedCost /\
  (forall l, ~ (l == 0)%Q -> solve (l_constrained l) = Err UnsupportedLConstrainedMovement).
Proof. exact slo_static_options. Qed.
Print Assumptions offline_static_options.
