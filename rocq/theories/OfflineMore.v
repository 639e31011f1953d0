(** Further results about solving offline problems: rejections for load problems, named options and
    the approximate search for SLO. *)
From Coq Require Import Lia Lqa.
From Verif Require Import NumLemmas CostProofs ConvertProofs VerifySpec VerifyProofs BudgetSpec BudgetCover StreamSpec.
From Verif Require Import OfflineSpec OfflineProofs OfflineFail OfflineApprox OfflineEnd OfflineEndLoads.
From Verif Require Import CostModel.
Local Open Scope Z_scope.

Lemma load_ops_lawful minimize s : lawful_ops (sblo_ops minimize s) /\ lawful_ops (slo_ops s).
Proof. split; (split; [reflexivity|]; split; [reflexivity|]; intros []; reflexivity). Qed.

Lemma sblo_rejects minimize s sched o (p : gsblo Z) :
  let r := offline_solve (sblo_ops minimize s) (optimal_search_sblo minimize sched o) p in
  (~ well_formed_sblo valZ p -> r = Err Invalid) /\
  (well_formed_sblo valZ p -> forall l, fo_l o = Some l -> r = Err UnsupportedLConstrainedMovement).
Proof.
  intros r. unfold r, offline_solve. cbn [sblo_ops po_verify po_objective].
  destruct (sblo_verified Z valZ p) as [Hiff Hor]. split.
  - intros Hn. destruct Hor as [H|H]; [destruct Hn; apply Hiff; exact H|]. rewrite H. reflexivity.
  - intros Hwf l Hl. rewrite (proj2 Hiff Hwf). cbn [obind]. unfold optimal_search_sblo.
    rewrite (limited_search dc_vmerge OutsideDecisionSpace (into_ssco valZ minimize p) sched o l (image_wf minimize p Hwf) Hl). reflexivity.
Qed.

Lemma slo_rejects minimize s sched o (p : gslo Z) : Z.of_nat (length (l_hitting p)) = l_d p ->
  let r := offline_solve (slo_ops s) (optimal_search_slo minimize sched o) p in
  (~ well_formed_slo valZ p -> r = Err Invalid) /\
  (well_formed_slo valZ p -> forall l, fo_l o = Some l -> r = Err UnsupportedLConstrainedMovement).
Proof.
  intros Hh r. unfold r, offline_solve. cbn [slo_ops po_verify po_objective].
  destruct (slo_verified Z valZ p Hh) as [Hiff Hor]. split.
  - intros Hn. destruct Hor as [H|H]; [destruct Hn; apply Hiff; exact H|]. rewrite H. reflexivity.
  - intros Hwf l Hl. rewrite (proj2 Hiff Hwf). cbn [obind]. unfold optimal_search_slo, optimal_search_sblo.
    rewrite (limited_search dc_vmerge OutsideDecisionSpace (into_ssco valZ minimize (into_sblo p)) sched o l
      (image_wf minimize _ (slo_image_wf p Hwf)) Hl). reflexivity.
Qed.

Lemma ssco_options {C D} (merge : C -> C -> C) vmerge (outside : D) s sched (p : gssco Z C D) :
  verify_ssco valZ p = Ok tt -> 1 <= g_tend p ->
  evaluable (gssco_hit valZ vmerge outside p) (g_tend p) (g_bounds p) ->
  capacity_suffices (gssco_hit valZ vmerge outside p) (g_tend p) (g_bounds p) ->
  let solve o := offline_solve (ssco_ops valZ merge vmerge outside s) (optimal_search_ssco vmerge outside sched o) p in
  let best alpha xs := cheapest (ssco_objective merge vmerge outside s p alpha) (g_tend p) (g_bounds p) xs in
  (exists xs c, solve default_options = Ok (xs, c) /\ best 1%Q xs) /\
  (exists xs c, solve inverted_options = Ok (xs, c) /\ best 1%Q xs) /\
  (forall alpha, (0 <= alpha)%Q -> exists xs c, solve (alpha_unfair alpha) = Ok (xs, c) /\ best alpha xs) /\
  (forall l, solve (l_constrained l) = Err UnsupportedLConstrainedMovement).
Proof.
  intros HV HT Hev Hcap solve best.
  assert (forall o, (0 <= fo_alpha o)%Q -> fo_l o = None -> exists xs c, solve o = Ok (xs, c) /\ best (fo_alpha o) xs) as H.
  { intros o Ha Hl. destruct (ssco_solved merge vmerge outside s sched o p HV HT Hev Hcap Ha Hl) as (xs & c & H1 & _ & _ & H2).
    exists xs, c. auto. }
  split; [apply (H default_options); [discriminate|reflexivity]|].
  split; [apply (H inverted_options); [discriminate|reflexivity]|].
  split; [intros alpha Ha; exact (H (alpha_unfair alpha) Ha eq_refl)|].
  intros l. apply ssco_verified in HV.
  exact (proj2 (ssco_rejects merge vmerge outside s sched (l_constrained l) p) HV l eq_refl).
Qed.

(** The server costs of the image of an SLO instance are regular. *)
Lemma slo_regular (p : gslo Z) : well_formed_slo valZ p -> Z.of_nat (length (l_hitting p)) = l_d p -> regular_costs (into_sblo p).
Proof.
  intros (_ & Hpos & _) Hh. split; [cbn; rewrite map_length; exact Hh|].
  intros f t Hf Ht. cbn [into_sblo b_cost] in Hf. apply in_map_iff in Hf as (e & <- & He).
  rewrite Forall_forall in Hpos. specialize (Hpos e He). cbn [into_sblo b_tend] in Ht.
  assert (forall l, exists c, call_mean unit_vmerge (cf_new 1 (certain (fun _ l =>
              Ok (if Qle_bool l 1 then mkCost (Fin e) (MSuccess tt)
                  else mkCost Inf (MFailure SLOMaxUtilizationExceeded))))) t l = Ok c /\
            eeq (c_cost c) (if Qle_bool l 1 then Fin e else Inf)) as Hc.
  { intros l. pose proof (certain_call_mean unit_vmerge (fun _ l0 => Ok (if Qle_bool l0 1 then mkCost (D := dc_failure) (Fin e) (MSuccess tt)
      else mkCost Inf (MFailure SLOMaxUtilizationExceeded))) t l ltac:(lia)) as HR.
    destruct (rel_left _ _ _ HR eq_refl) as (c & Hc & E). exists c. split; [exact Hc|]. rewrite E. destruct (Qle_bool l 1); reflexivity. }
  split.
  - intros l _. destruct (Hc l) as (c & E & V). exists c. split; [exact E|]. rewrite V. destruct (Qle_bool l 1); simpl; auto.
  - intros l l' c c' _ Hl E E'. destruct (Hc l) as (d & Ed & V). destruct (Hc l') as (d' & Ed' & V').
    assert (d = c) by congruence. assert (d' = c') by congruence. subst. rewrite V, V'.
    destruct (Qle_bool l' 1) eqn:B'.
    + apply Qle_bool_iff in B'. assert (Qle_bool l 1 = true) as -> by (apply Qle_bool_iff; lra). simpl. lra.
    + destruct (Qle_bool l 1); simpl; auto.
Qed.

Lemma slo_approximated minimize s gamma o (p : gslo Z) :
  verify_slo valZ p = Ok tt -> Z.of_nat (length (l_hitting p)) = l_d p -> 1 <= l_tend p ->
  solver_reports minimize ->
  evaluable (sblo_hit valZ minimize (into_sblo p)) (l_tend p) (l_bounds p) ->
  capacity_suffices (sblo_hit valZ minimize (into_sblo p)) (l_tend p) (l_bounds p) ->
  assigns_best minimize (into_sblo p) ->
  (1 < gamma)%Q -> (0 <= fo_alpha o)%Q -> fo_l o = None ->
  exists N, forall sched fuel, (N <= fuel)%nat -> exists xs c,
    offline_solve (slo_ops s) (approx_search_slo minimize sched fuel gamma o) p = Ok (xs, c) /\
    slo_objective_fn s p 1 xs = Ok c /\ is_fin (c_cost c) /\ covers p xs /\ assignable minimize p xs /\
    cheapest_within_among (2 * gamma - 1) (assignable minimize p) (slo_objective_fn s p (fo_alpha o)) (l_tend p) (l_bounds p) xs.
Proof.
  intros HV Hh HT Hsol Hev Hcap Hbest Hg Ha Hl. apply slo_verified in HV; [|exact Hh].
  destruct (sblo_approximated minimize s gamma o (into_sblo p)) as (N & HN); auto.
  { apply sblo_verified. apply slo_image_wf. exact HV. }
  { apply slo_regular; assumption. }
  exists N. intros sched fuel Hf. destruct (HN sched fuel Hf) as (xs & c & Hrun & _ & _ & Hopt).
  assert (HR : approx_search_slo minimize sched fuel gamma o p = Ok xs).
  { unfold offline_solve in Hrun. apply obind_inv in Hrun as (u & _ & Hrun). apply obind_inv in Hrun as (ys & Hys & Hrun).
    apply obind_inv in Hrun as (d & _ & Hrun). assert (ys = xs) by congruence. subst ys. exact Hys. }
  destruct (slo_solve_with minimize s p HV Hh Hsol Hev (approx_search_slo minimize sched fuel gamma o) (fo_alpha o) (2 * gamma - 1) xs HR Hopt)
    as (c1 & H1 & H2 & H3 & H4 & H5 & H6).
  exists xs, c1. auto 10.
Qed.
