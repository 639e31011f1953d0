(** The approximate search with the default options (gamma = 1.1). *)
From Verif Require Import VerifySpec BudgetSpec OfflineSpec OfflineEnd OfflineEndLoads OfflineMore StaticSpec StreamSpec.
From Coq Require Import Lqa.
From Verif Require Import CostModel.
Local Open Scope Z_scope.

Lemma default_exceeds : (1 < default_gamma)%Q.
Proof. unfold default_gamma. lra. Qed.
Lemma default_alpha : (0 <= fo_alpha default_options)%Q.
Proof. cbn. lra. Qed.

Lemma ssco_default {C D} (merge : C -> C -> C) vmerge (outside : D) (s : split) (p : gssco Z C D) :
  verify_ssco valZ p = Ok tt -> 1 <= g_tend p ->
  evaluable (gssco_hit valZ vmerge outside p) (g_tend p) (g_bounds p) ->
  capacity_suffices (gssco_hit valZ vmerge outside p) (g_tend p) (g_bounds p) ->
  scales_at_most (12 # 10) (gssco_hit valZ vmerge outside p) (g_tend p) (g_bounds p) ->
  exists N, forall sched fuel, (N <= fuel)%nat -> exists xs c,
    offline_solve (ssco_ops valZ merge vmerge outside s) (approx_search_ssco vmerge outside sched fuel default_gamma default_options) p = Ok (xs, c) /\
    ssco_objective merge vmerge outside s p 1 xs = Ok c /\ is_fin (c_cost c) /\
    cheapest_within (12 # 10) (ssco_objective merge vmerge outside s p 1) (g_tend p) (g_bounds p) xs.
Proof.
  intros H1 H2 H3 H4 H5.
  exact (ssco_approximated merge vmerge outside s default_gamma default_options p H1 H2 H3 H4 H5 default_exceeds default_alpha eq_refl).
Qed.

Lemma sblo_default minimize (s : split) (p : gsblo Z) :
  verify_sblo valZ p = Ok tt -> 1 <= b_tend p ->
  evaluable (sblo_hit valZ minimize p) (b_tend p) (b_bounds p) ->
  capacity_suffices (sblo_hit valZ minimize p) (b_tend p) (b_bounds p) ->
  regular_costs p -> assigns_best minimize p ->
  exists N, forall sched fuel, (N <= fuel)%nat -> exists xs c,
    offline_solve (sblo_ops minimize s) (approx_search_sblo minimize sched fuel default_gamma default_options) p = Ok (xs, c) /\
    sblo_objective_fn minimize s p 1 xs = Ok c /\ is_fin (c_cost c) /\
    cheapest_within (12 # 10) (sblo_objective_fn minimize s p 1) (b_tend p) (b_bounds p) xs.
Proof.
  intros H1 H2 H3 H4 H5 H6.
  exact (sblo_approximated minimize s default_gamma default_options p H1 H2 H3 H4 H5 H6 default_exceeds default_alpha eq_refl).
Qed.

Lemma slo_default minimize (s : split) (p : gslo Z) :
  verify_slo valZ p = Ok tt -> Z.of_nat (length (l_hitting p)) = l_d p -> 1 <= l_tend p ->
  solver_reports minimize ->
  evaluable (sblo_hit valZ minimize (into_sblo p)) (l_tend p) (l_bounds p) ->
  capacity_suffices (sblo_hit valZ minimize (into_sblo p)) (l_tend p) (l_bounds p) ->
  assigns_best minimize (into_sblo p) ->
  exists N, forall sched fuel, (N <= fuel)%nat -> exists xs c,
    offline_solve (slo_ops s) (approx_search_slo minimize sched fuel default_gamma default_options) p = Ok (xs, c) /\
    slo_objective_fn s p 1 xs = Ok c /\ is_fin (c_cost c) /\ covers p xs /\ assignable minimize p xs /\
    cheapest_within_among (12 # 10) (assignable minimize p) (slo_objective_fn s p 1) (l_tend p) (l_bounds p) xs.
Proof.
  intros H1 H2 H3 H4 H5 H6 H7.
  exact (slo_approximated minimize s default_gamma default_options p H1 H2 H3 H4 H5 H6 H7 default_exceeds default_alpha eq_refl).
Qed.
