(** Proofs about solving offline SBLO and SLO problems end to end. *)
From Coq Require Import Lia Lqa.
From Verif Require Import NumLemmas GraphSearchSpec GraphSearchProofs ApproxRatioProofs ObjectiveProofs
  CostSpec CostProofs ConvertProofs ConvertObjective VerifySpec VerifyProofs LoadProofs LoadObjective BudgetSpec BudgetCover
  OfflineModel OfflineSpec OfflineProofs OfflineFail OfflineLoads OfflineApprox OfflineEnd.
From Verif Require Import ProblemModel CostModel.
Local Open Scope Z_scope.

(** *** Transfer along equal costs *)
Lemma rel_right {C D} (a b : outcome (cost C D)) c : outcome_rel cost_eq a b -> a = Ok c ->
  exists c', b = Ok c' /\ eeq (c_cost c) (c_cost c').
Proof. intros H ->. destruct b; simpl in H; try contradiction. destruct H as [H _]. eauto. Qed.
Lemma rel_left {C D} (a b : outcome (cost C D)) c : outcome_rel cost_eq a b -> b = Ok c ->
  exists c', a = Ok c' /\ eeq (c_cost c') (c_cost c).
Proof. intros H ->. destruct a; simpl in H; try contradiction. destruct H as [H _]. eauto. Qed.

Lemma cheapest_rel {C D} r P (f g : list (list Z) -> outcome (cost C D)) T bounds xs :
  (forall ys, outcome_rel cost_eq (f ys) (g ys)) ->
  cheapest_within_among r P f T bounds xs -> cheapest_within_among r P g T bounds xs.
Proof.
  intros HR (Hf & c & Hc & Hfin & H). split; [exact Hf|].
  destruct (rel_right _ _ _ (HR xs) Hc) as (c1 & Hc1 & E1). exists c1. split; [exact Hc1|].
  split; [eapply is_fin_eeq; eauto|]. intros ys Hy HP. destruct (H ys Hy HP) as (c' & Hc' & Hle).
  destruct (rel_right _ _ _ (HR ys) Hc') as (c2 & Hc2 & E2). exists c2. split; [exact Hc2|].
  rewrite <- E1, <- (escale_eeq _ _ _ E2). exact Hle.
Qed.

Lemma cheapest_of_within_1 {C D} (obj : list (list Z) -> outcome (cost C D)) P T bounds xs :
  cheapest_within_among 1 P obj T bounds xs -> cheapest_among P obj T bounds xs.
Proof.
  intros (Hf & c & Hc & Hfin & H). split; [exact Hf|]. exists c. split; [exact Hc|]. split; [exact Hfin|].
  intros ys Hy HP. destruct (H ys Hy HP) as (c' & Hc' & Hle). exists c'. split; [exact Hc'|].
  eapply ele_trans; [exact Hle|]. destruct (c_cost c'); simpl; [lra|exact I].
Qed.

(** *** SBLO *)
Section SBLO.
  Variable minimize :
    (list Q -> outcome ext) -> list (Q * Q) -> list Q -> list (list Q -> outcome Q) -> option (list Q * ext).
  Variable s : split.
  Variable p : gsblo Z.
  Notation image := (into_ssco valZ minimize p).
  Notation hit := (sblo_hit valZ minimize p).
  Notation ihit := (gssco_hit valZ dc_vmerge OutsideDecisionSpace image).
  Notation iobj := (ssco_objective dc_hmerge dc_vmerge OutsideDecisionSpace s image).
  Notation obj := (sblo_objective_fn minimize s p).
  Hypothesis Hwf : well_formed_sblo valZ p.
  Hypothesis Hev : evaluable hit (b_tend p) (b_bounds p).

  Lemma image_wf : well_formed_ssco valZ image.
  Proof. exact (proj1 Hwf). Qed.
  Lemma image_ev : evaluable ihit (g_tend image) (g_bounds image).
  Proof.
    intros t x Ht Hx. destruct (Hev t x Ht Hx) as (c & Hc).
    destruct (rel_left _ _ _ (into_ssco_hit valZ minimize p t x ltac:(lia)) Hc) as (c' & Hc' & _). eauto.
  Qed.
  Lemma image_cap : capacity_suffices hit (b_tend p) (b_bounds p) <-> capacity_suffices ihit (g_tend image) (g_bounds image).
  Proof.
    split; intros H t Ht; destruct (H t Ht) as (c & Hc & Hf);
      pose proof (into_ssco_hit valZ minimize p t (b_bounds p) ltac:(lia)) as HR.
    - destruct (rel_left _ _ _ HR Hc) as (c' & Hc' & E). exists c'. split; [exact Hc'|].
      eapply is_fin_eeq; [apply eeq_sym; exact E|exact Hf].
    - destruct (rel_right _ _ _ HR Hc) as (c' & Hc' & E). exists c'. split; [exact Hc'|].
      eapply is_fin_eeq; [exact E|exact Hf].
  Qed.
  Lemma image_scales r : scales_at_most r hit (b_tend p) (b_bounds p) ->
    scales_at_most r ihit (g_tend image) (g_bounds image).
  Proof.
    intros H t x y c c' Ht Hx Hy HR Hc Hc'.
    destruct (rel_right _ _ _ (into_ssco_hit valZ minimize p t x ltac:(lia)) Hc) as (c1 & Hc1 & E1).
    destruct (rel_right _ _ _ (into_ssco_hit valZ minimize p t y ltac:(lia)) Hc') as (c2 & Hc2 & E2).
    rewrite E2, (escale_eeq _ _ _ E1). exact (H t x y c1 c2 Ht Hx Hy HR Hc1 Hc2).
  Qed.
  Lemma image_obj alpha xs : outcome_rel cost_eq (iobj alpha xs) (obj alpha xs).
  Proof. apply into_ssco_objective. Qed.

  Lemma sblo_solve_with algorithm alpha r (P : list (list Z) -> Prop) xs : algorithm p = Ok xs ->
    cheapest_within_among r P (iobj alpha) (b_tend p) (b_bounds p) xs ->
    exists c, offline_solve (sblo_ops minimize s) algorithm p = Ok (xs, c) /\ obj 1 xs = Ok c /\ is_fin (c_cost c) /\
      cheapest_within_among r P (obj alpha) (b_tend p) (b_bounds p) xs.
  Proof.
    intros Halg HC. destruct (solve_with dc_hmerge dc_vmerge OutsideDecisionSpace s image image_wf image_ev
      (fun _ => algorithm p) alpha r P xs Halg HC) as (c & _ & Hc & Hfin).
    destruct (rel_right _ _ _ (image_obj 1 xs) Hc) as (c1 & Hc1 & E1). exists c1.
    split; [|split; [exact Hc1|split; [eapply is_fin_eeq; eauto|eapply cheapest_rel; [apply image_obj|exact HC]]]].
    unfold offline_solve. cbn [sblo_ops po_verify po_objective].
    assert (HV : verify_sblo valZ p = Ok tt) by (apply sblo_verified; exact Hwf).
    rewrite HV. cbn [obind]. rewrite Halg. cbn [obind].
    change (objective_o dc_hmerge s (sblo_problem valZ minimize p) xs (gzero valZ (b_d p)) 1 false (b_tend p)) with (obj 1 xs).
    rewrite Hc1. reflexivity.
  Qed.
End SBLO.

Lemma sblo_solved minimize s sched o (p : gsblo Z) :
  verify_sblo valZ p = Ok tt -> 1 <= b_tend p ->
  evaluable (sblo_hit valZ minimize p) (b_tend p) (b_bounds p) ->
  capacity_suffices (sblo_hit valZ minimize p) (b_tend p) (b_bounds p) ->
  (0 <= fo_alpha o)%Q -> fo_l o = None ->
  exists xs c,
    offline_solve (sblo_ops minimize s) (optimal_search_sblo minimize sched o) p = Ok (xs, c) /\
    sblo_objective_fn minimize s p 1 xs = Ok c /\ is_fin (c_cost c) /\
    cheapest (sblo_objective_fn minimize s p (fo_alpha o)) (b_tend p) (b_bounds p) xs.
Proof.
  intros HV HT Hev Hcap Ha Hl. apply sblo_verified in HV.
  destruct (optimal_search_correct dc_vmerge OutsideDecisionSpace (into_ssco valZ minimize p)
    (image_wf minimize p HV) (image_ev minimize p Hev) sched o HT (proj1 (image_cap minimize p) Hcap) Ha Hl) as (xs & Hrun & Hopt).
  destruct (sblo_solve_with minimize s p HV Hev (optimal_search_sblo minimize sched o) (fo_alpha o) 1 (fun _ => True) xs Hrun
    (cheapest_within_1 _ _ _ _ _ (Hopt dc_hmerge s))) as (c & H1 & H2 & H3 & H4).
  exists xs, c. repeat (split; [assumption|]). apply cheapest_of_within_1. exact H4.
Qed.

Lemma sblo_answers minimize s sched o (p : gsblo Z) :
  verify_sblo valZ p = Ok tt -> evaluable (sblo_hit valZ minimize p) (b_tend p) (b_bounds p) ->
  (0 <= fo_alpha o)%Q -> fo_l o = None ->
  let r := offline_solve (sblo_ops minimize s) (optimal_search_sblo minimize sched o) p in
  let usable := 1 <= b_tend p /\ capacity_suffices (sblo_hit valZ minimize p) (b_tend p) (b_bounds p) in
  ((exists xs c, r = Ok (xs, c)) <-> usable) /\ (~ usable -> r = Panic).
Proof.
  intros HV Hev Ha Hl r usable. assert (HP : ~ usable -> r = Panic).
  { intros Hno. unfold r, offline_solve. cbn [sblo_ops po_verify po_objective]. rewrite HV. cbn [obind].
    apply sblo_verified in HV. unfold optimal_search_sblo.
    rewrite (search_panics dc_vmerge OutsideDecisionSpace (into_ssco valZ minimize p)
      (image_wf minimize p HV) (image_ev minimize p Hev) sched o Hl); [reflexivity|].
    intros [H1 H2]. apply Hno. split; [exact H1|]. apply image_cap. exact H2. }
  split; [split|exact HP].
  - intros (xs & c & Hr).
    destruct (usable_dec (sblo_hit valZ minimize p) (b_tend p) (b_bounds p)) as [H|H]; [exact H|].
    rewrite (HP H) in Hr. discriminate.
  - intros [HT Hcap]. destruct (sblo_solved minimize s sched o p HV HT Hev Hcap Ha Hl) as (xs & c & H & _).
    exists xs, c. exact H.
Qed.

Lemma sblo_approximated minimize s gamma o (p : gsblo Z) :
  verify_sblo valZ p = Ok tt -> 1 <= b_tend p ->
  evaluable (sblo_hit valZ minimize p) (b_tend p) (b_bounds p) ->
  capacity_suffices (sblo_hit valZ minimize p) (b_tend p) (b_bounds p) ->
  regular_costs p -> assigns_best minimize p ->
  (1 < gamma)%Q -> (0 <= fo_alpha o)%Q -> fo_l o = None ->
  exists N, forall sched fuel, (N <= fuel)%nat -> exists xs c,
    offline_solve (sblo_ops minimize s) (approx_search_sblo minimize sched fuel gamma o) p = Ok (xs, c) /\
    sblo_objective_fn minimize s p 1 xs = Ok c /\ is_fin (c_cost c) /\
    cheapest_within (2 * gamma - 1) (sblo_objective_fn minimize s p (fo_alpha o)) (b_tend p) (b_bounds p) xs.
Proof.
  intros HV HT Hev Hcap Hreg Hbest Hg Ha Hl. apply sblo_verified in HV.
  assert (Hsc := sblo_scales minimize p (2 * gamma - 1) HV Hreg Hbest ltac:(lra)).
  destruct (approx_search_correct dc_vmerge OutsideDecisionSpace (into_ssco valZ minimize p)
    (image_wf minimize p HV) (image_ev minimize p Hev) gamma o HT (proj1 (image_cap minimize p) Hcap) Hg Ha Hl
    (image_scales minimize p _ Hsc)) as (N & HN).
  exists N. intros sched fuel Hf. destruct (HN sched fuel Hf) as (xs & Hrun & Hopt).
  destruct (sblo_solve_with minimize s p HV Hev (approx_search_sblo minimize sched fuel gamma o) (fo_alpha o) _ (fun _ => True) xs Hrun
    (Hopt dc_hmerge s)) as (c & H1 & H2 & H3 & H4).
  exists xs, c. auto.
Qed.

Lemma ssco_approximated {C D} merge vmerge (outside : D) s gamma o (p : gssco Z C D) :
  verify_ssco valZ p = Ok tt -> 1 <= g_tend p ->
  evaluable (gssco_hit valZ vmerge outside p) (g_tend p) (g_bounds p) ->
  capacity_suffices (gssco_hit valZ vmerge outside p) (g_tend p) (g_bounds p) ->
  scales_at_most (2 * gamma - 1) (gssco_hit valZ vmerge outside p) (g_tend p) (g_bounds p) ->
  (1 < gamma)%Q -> (0 <= fo_alpha o)%Q -> fo_l o = None ->
  exists N, forall sched fuel, (N <= fuel)%nat -> exists xs c,
    offline_solve (ssco_ops valZ merge vmerge outside s) (approx_search_ssco vmerge outside sched fuel gamma o) p = Ok (xs, c) /\
    ssco_objective merge vmerge outside s p 1 xs = Ok c /\ is_fin (c_cost c) /\
    cheapest_within (2 * gamma - 1) (ssco_objective merge vmerge outside s p (fo_alpha o)) (g_tend p) (g_bounds p) xs.
Proof.
  intros HV HT Hev Hcap Hsc Hg Ha Hl. apply ssco_verified in HV.
  destruct (approx_search_correct vmerge outside p HV Hev gamma o HT Hcap Hg Ha Hl Hsc) as (N & HN).
  exists N. intros sched fuel Hf. destruct (HN sched fuel Hf) as (xs & Hrun & Hopt). specialize (Hopt merge s).
  destruct (solve_with merge vmerge outside s p HV Hev (approx_search_ssco vmerge outside sched fuel gamma o) _ _ _ _ Hrun Hopt)
    as (c & H1 & H2 & H3).
  exists xs, c. auto.
Qed.

(** *** SLO *)
Section SLO.
  Variable minimize :
    (list Q -> outcome ext) -> list (Q * Q) -> list Q -> list (list Q -> outcome Q) -> option (list Q * ext).
  Variable s : split.
  Variable p : gslo Z.
  Notation image := (into_sblo p).
  Notation hit := (sblo_hit valZ minimize image).
  Notation iobj := (sblo_objective_fn minimize s image).
  Notation obj := (slo_objective_fn s p).
  Hypothesis Hwf : well_formed_slo valZ p.
  Hypothesis Hh : Z.of_nat (length (l_hitting p)) = l_d p.
  Hypothesis Hsol : solver_reports minimize.
  Hypothesis Hev : evaluable hit (l_tend p) (l_bounds p).

  Lemma slo_image_wf : well_formed_sblo valZ image.
  Proof. destruct Hwf as (H1 & _ & _ & _ & _ & H2). split; assumption. Qed.

  Lemma slo_load t : 1 <= t <= l_tend p -> exists l, access (l_load p) t = Some l /\ 0 <= l.
  Proof.
    intros Ht. destruct Hwf as (_ & _ & _ & _ & _ & H1 & H2).
    destruct (access (l_load p) t) as [l|] eqn:E.
    - exists l. split; [reflexivity|]. specialize (H2 t l Ht E). unfold is_nonnegative in H2. cbn in H2.
      change 0%Q with (inject_Z 0) in H2. rewrite <- Zle_Qle in H2. exact H2.
    - unfold access in E. destruct ((1 <=? t) && (t <=? Z.of_nat (length (l_load p))))%bool eqn:EB.
      + apply nth_error_None in E. lia.
      + lia.
  Qed.

  Lemma slo_shape x : feasible_config (l_bounds p) x -> Z.of_nat (length x) = l_d p /\ Forall (fun j => 0 <= j) x.
  Proof.
    intros Hx. destruct Hwf as ((H1 & H2 & H3 & _) & _). split.
    - rewrite (feasible_length _ _ Hx). exact H3.
    - clear - Hx. induction Hx; constructor; auto. lia.
  Qed.

  Lemma slo_hit_ok t x : 1 <= t <= l_tend p -> feasible_config (l_bounds p) x -> exists c, slo_hit valZ p t x = Ok c.
  Proof.
    intros Ht Hx. destruct (slo_load t Ht) as (l & Hl & _). destruct (slo_shape x Hx) as [Hlen _].
    destruct Hwf as ((H1 & _) & _). rewrite (slo_value valZ p t x l H1 Hh Hlen Hl). eauto.
  Qed.

  (** Objective values of feasible schedules. *)
  Lemma slot_of xs i x : feasible_schedule (l_tend p) (l_bounds p) xs -> nth_error xs i = Some x ->
    1 <= 1 + Z.of_nat i <= l_tend p /\ feasible_config (l_bounds p) x.
  Proof.
    intros [Hl Hx] Hi. assert (i < length xs)%nat by (apply nth_error_Some; congruence).
    rewrite Forall_forall in Hx. split; [lia|]. apply Hx. eapply nth_error_In, Hi.
  Qed.

  Lemma image_objective alpha xs : feasible_schedule (l_tend p) (l_bounds p) xs ->
    exists c, iobj alpha xs = Ok c /\
      eeq (c_cost c) (total_cost (fun t x => c_cost (hit_of OutsideDecisionSpace hit t x)) (switching (l_switching p) false)
        alpha 1 (repeat 0 (Z.to_nat (l_d p))) xs).
  Proof.
    intros Hx. destruct Hwf as ((H1 & H2 & H3 & H4 & _) & _).
    apply (objective_generic dc_hmerge OutsideDecisionSpace s (sblo_problem valZ minimize image) (l_d p) (l_tend p) (l_bounds p)); auto.
    intros i x Hi. destruct (slot_of xs i x Hx Hi) as [Ht Hf]. destruct (Hev _ _ Ht Hf) as (c & Hc).
    cbn [sblo_problem op_hit]. unfold hit_of. rewrite Hc. reflexivity.
  Qed.

  Lemma slo_objective_total alpha xs : feasible_schedule (l_tend p) (l_bounds p) xs ->
    exists c, obj alpha xs = Ok c /\
      eeq (c_cost c) (total_cost (fun t x => c_cost (hit_of OutsideDecisionSpace (slo_hit valZ p) t x)) (switching (l_switching p) false)
        alpha 1 (repeat 0 (Z.to_nat (l_d p))) xs).
  Proof.
    intros Hx. destruct Hwf as ((H1 & H2 & H3 & H4 & _) & _).
    apply (objective_generic (fun _ _ => tt) OutsideDecisionSpace s (slo_problem valZ p) (l_d p) (l_tend p) (l_bounds p)); auto.
    intros i x Hi. destruct (slot_of xs i x Hx Hi) as [Ht Hf]. destruct (slo_hit_ok _ _ Ht Hf) as (c & Hc).
    cbn [slo_problem op_hit]. unfold hit_of. rewrite Hc. reflexivity.
  Qed.

  Lemma finite_agrees t x c : 1 <= t <= l_tend p -> feasible_config (l_bounds p) x -> hit t x = Ok c -> is_fin (c_cost c) ->
    eeq (c_cost (hit_of OutsideDecisionSpace hit t x)) (c_cost (hit_of OutsideDecisionSpace (slo_hit valZ p) t x)) /\
    forall l, access (l_load p) t = Some l -> (inject_Z l <= Qsum (map inject_Z x))%Q.
  Proof.
    intros Ht Hx Hc Hfin. destruct (slo_load t Ht) as (l & Hl & _). destruct (slo_shape x Hx) as [Hlen Hx0].
    destruct Hwf as ((H1 & _) & _).
    destruct (image_finite minimize p t x l c ltac:(lia) H1 Hh Hlen Hx0 Hsol Hl Hc Hfin) as (c' & Hc' & E & Hcov).
    split.
    - unfold hit_of. rewrite Hc, Hc'. exact E.
    - intros l' Hl'. assert (l' = l) by congruence. subst. exact Hcov.
  Qed.

  Lemma assignable_agrees alpha ys c : feasible_schedule (l_tend p) (l_bounds p) ys -> assignable minimize p ys ->
    iobj alpha ys = Ok c -> exists c', obj alpha ys = Ok c' /\ eeq (c_cost c) (c_cost c').
  Proof.
    intros Hy HA Hc. destruct (image_objective alpha ys Hy) as (c1 & Hc1 & E1). assert (c1 = c) by congruence. subst c1.
    destruct (slo_objective_total alpha ys Hy) as (c2 & Hc2 & E2). exists c2. split; [exact Hc2|].
    rewrite E1, E2. apply total_cost_at. intros i x Hi. destruct (slot_of ys i x Hy Hi) as [Ht Hf].
    destruct (HA i x Hi) as (d & Hd & Hfin). rewrite Z.add_comm in Hd. eapply finite_agrees; eauto.
  Qed.

  Lemma finite_assignable alpha xs c : feasible_schedule (l_tend p) (l_bounds p) xs -> iobj alpha xs = Ok c ->
    is_fin (c_cost c) -> assignable minimize p xs.
  Proof.
    intros Hx Hc Hfin i x Hi. destruct (image_objective alpha xs Hx) as (c1 & Hc1 & E1).
    assert (c1 = c) by congruence. subst c1. apply (is_fin_eeq _ _ E1) in Hfin.
    pose proof (total_cost_finite _ _ _ _ _ _ Hfin i x Hi) as HF.
    destruct (slot_of xs i x Hx Hi) as [Ht Hf]. destruct (Hev _ _ Ht Hf) as (d & Hd).
    rewrite Z.add_comm. exists d. split; [exact Hd|]. unfold hit_of in HF. rewrite Hd in HF. exact HF.
  Qed.

  Lemma assignable_covers xs : feasible_schedule (l_tend p) (l_bounds p) xs -> assignable minimize p xs -> covers p xs.
  Proof.
    intros Hx HA i x l Hi Hl. destruct (slot_of xs i x Hx Hi) as [Ht Hf].
    destruct (HA i x Hi) as (d & Hd & Hfin). rewrite Z.add_comm in Hd.
    apply (proj2 (finite_agrees _ x d Ht Hf Hd Hfin)). unfold access.
    assert (HI : (i < length (l_load p))%nat) by (apply nth_error_Some; congruence).
    replace ((1 <=? 1 + Z.of_nat i) && (1 + Z.of_nat i <=? Z.of_nat (length (l_load p))))%bool with true by (symmetry; lia).
    replace (Z.to_nat (1 + Z.of_nat i - 1)) with i by lia. exact Hl.
  Qed.

  Lemma slo_solve_among algorithm alpha r (P : list (list Z) -> Prop) xs : algorithm p = Ok xs ->
    cheapest_within_among r P (iobj alpha) (l_tend p) (l_bounds p) xs ->
    exists c, offline_solve (slo_ops s) algorithm p = Ok (xs, c) /\ obj 1 xs = Ok c /\ is_fin (c_cost c) /\ covers p xs /\ assignable minimize p xs /\
      cheapest_within_among r (fun ys => P ys /\ assignable minimize p ys) (obj alpha) (l_tend p) (l_bounds p) xs.
  Proof.
    intros Halg (Hf & c & Hc & Hfin & H).
    pose proof (finite_assignable alpha xs c Hf Hc Hfin) as HA.
    destruct (slo_objective_total 1 xs Hf) as (c1 & Hc1 & E1). exists c1. split; [|split; [exact Hc1|split; [|split; [|split; [exact HA|]]]]].
    - unfold offline_solve. cbn [slo_ops po_verify po_objective].
      assert (HV : verify_slo valZ p = Ok tt) by (apply slo_verified; assumption).
      rewrite HV. cbn [obind]. rewrite Halg. cbn [obind].
      change (objective_o (fun _ _ : unit => tt) s (slo_problem valZ p) xs (gzero valZ (l_d p)) 1 false (l_tend p)) with (obj 1 xs).
      rewrite Hc1. reflexivity.
    - eapply is_fin_eeq; [apply eeq_sym; exact E1|]. eapply total_cost_alpha.
      destruct (assignable_agrees alpha xs c Hf HA Hc) as (c2 & Hc2 & E2).
      destruct (slo_objective_total alpha xs Hf) as (c3 & Hc3 & E3). assert (c3 = c2) by congruence. subst c3.
      eapply is_fin_eeq; [exact E3|]. eapply is_fin_eeq; [exact E2|exact Hfin].
    - apply assignable_covers; assumption.
    - split; [exact Hf|]. destruct (assignable_agrees alpha xs c Hf HA Hc) as (c2 & Hc2 & E2). exists c2.
      split; [exact Hc2|]. split; [eapply is_fin_eeq; eauto|]. intros ys Hy [HP Hys].
      destruct (H ys Hy HP) as (c' & Hc' & Hle). destruct (assignable_agrees alpha ys c' Hy Hys Hc') as (c3 & Hc3 & E3).
      exists c3. split; [exact Hc3|]. rewrite <- E2, <- (escale_eeq _ _ _ E3). exact Hle.
  Qed.

  Lemma slo_solve_with algorithm alpha r xs : algorithm p = Ok xs ->
    cheapest_within_among r (fun _ => True) (iobj alpha) (l_tend p) (l_bounds p) xs ->
    exists c, offline_solve (slo_ops s) algorithm p = Ok (xs, c) /\ obj 1 xs = Ok c /\ is_fin (c_cost c) /\ covers p xs /\ assignable minimize p xs /\
      cheapest_within_among r (assignable minimize p) (obj alpha) (l_tend p) (l_bounds p) xs.
  Proof.
    intros Halg H. destruct (slo_solve_among algorithm alpha r (fun _ => True) xs Halg H) as (c & H1 & H2 & H3 & H4 & H5 & Hf & c' & H6 & H7 & H8).
    exists c. do 5 (split; [assumption|]). split; [exact Hf|]. exists c'. do 2 (split; [assumption|]). intros ys Hy HA. apply H8; auto.
  Qed.
End SLO.

Lemma slo_solved minimize s sched o (p : gslo Z) :
  verify_slo valZ p = Ok tt -> Z.of_nat (length (l_hitting p)) = l_d p -> 1 <= l_tend p ->
  solver_reports minimize ->
  evaluable (sblo_hit valZ minimize (into_sblo p)) (l_tend p) (l_bounds p) ->
  capacity_suffices (sblo_hit valZ minimize (into_sblo p)) (l_tend p) (l_bounds p) ->
  (0 <= fo_alpha o)%Q -> fo_l o = None ->
  exists xs c,
    offline_solve (slo_ops s) (optimal_search_slo minimize sched o) p = Ok (xs, c) /\
    slo_objective_fn s p 1 xs = Ok c /\ is_fin (c_cost c) /\ covers p xs /\ assignable minimize p xs /\
    cheapest_among (assignable minimize p) (slo_objective_fn s p (fo_alpha o)) (l_tend p) (l_bounds p) xs.
Proof.
  intros HV Hh HT Hsol Hev Hcap Ha Hl. apply slo_verified in HV; [|exact Hh].
  destruct (sblo_solved minimize s sched o (into_sblo p)) as (xs & c & Hrun & _ & _ & Hopt); auto.
  { apply sblo_verified. apply slo_image_wf. exact HV. }
  assert (HR : optimal_search_slo minimize sched o p = Ok xs).
  { unfold offline_solve in Hrun. apply obind_inv in Hrun as (u & _ & Hrun). apply obind_inv in Hrun as (ys & Hys & Hrun).
    apply obind_inv in Hrun as (d & _ & Hrun). assert (ys = xs) by congruence. subst ys. exact Hys. }
  destruct (slo_solve_with minimize s p HV Hh Hsol Hev (optimal_search_slo minimize sched o) (fo_alpha o) 1 xs HR
    (cheapest_within_1 _ _ _ _ _ Hopt)) as (c1 & H1 & H2 & H3 & H4 & H5 & H6).
  exists xs, c1. repeat (split; [assumption|]). apply cheapest_of_within_1. exact H6.
Qed.

Lemma slo_answers minimize s sched o (p : gslo Z) :
  verify_slo valZ p = Ok tt -> Z.of_nat (length (l_hitting p)) = l_d p -> solver_reports minimize ->
  evaluable (sblo_hit valZ minimize (into_sblo p)) (l_tend p) (l_bounds p) ->
  (0 <= fo_alpha o)%Q -> fo_l o = None ->
  let r := offline_solve (slo_ops s) (optimal_search_slo minimize sched o) p in
  let usable := 1 <= l_tend p /\ capacity_suffices (sblo_hit valZ minimize (into_sblo p)) (l_tend p) (l_bounds p) in
  ((exists xs c, r = Ok (xs, c)) <-> usable) /\ (~ usable -> r = Panic).
Proof.
  intros HV Hh Hsol Hev Ha Hl r usable. assert (HV' := HV). apply slo_verified in HV'; [|exact Hh].
  assert (HP : ~ usable -> r = Panic).
  { intros Hno. unfold r, offline_solve. cbn [slo_ops po_verify po_objective]. rewrite HV. cbn [obind].
    unfold optimal_search_slo, optimal_search_sblo.
    rewrite (search_panics dc_vmerge OutsideDecisionSpace (into_ssco valZ minimize (into_sblo p))
      (image_wf minimize _ (slo_image_wf p HV')) (image_ev minimize _ Hev) sched o Hl); [reflexivity|].
    intros [H1 H2]. apply Hno. split; [exact H1|]. apply (proj2 (image_cap minimize (into_sblo p))). exact H2. }
  split; [split|exact HP].
  - intros (xs & c & Hr).
    destruct (usable_dec (sblo_hit valZ minimize (into_sblo p)) (l_tend p) (l_bounds p)) as [H|H]; [exact H|].
    rewrite (HP H) in Hr. discriminate.
  - intros [HT Hcap]. destruct (slo_solved minimize s sched o p HV Hh HT Hsol Hev Hcap Ha Hl) as (xs & c & H & _).
    exists xs, c. exact H.
Qed.

(** *** A single server type *)
Lemma single_fractions (p : gsblo Z) t x L zs zs' : b_d p = 1 ->
  sblo_objective valZ p t x [L] (mkFractions zs 1 1) = sblo_objective valZ p t x [L] (mkFractions zs' 1 1).
Proof. intros H. unfold sblo_objective. rewrite H. reflexivity. Qed.

Lemma single_assignable minimize (p : gslo Z) t x c l :
  1 <= t -> l_d p = 1 -> Z.of_nat (length (l_hitting p)) = l_d p -> Z.of_nat (length x) = l_d p ->
  Forall (fun j => 0 <= j) x -> solver_reports minimize -> access (l_load p) t = Some l -> 0 <= l ->
  feasible_config (l_bounds p) x ->
  sblo_hit valZ minimize (into_sblo p) t x = Ok c -> (inject_Z l <= Qsum (map inject_Z x))%Q -> is_fin (c_cost c).
Proof.
  intros Ht Hd Hh Hx Hx0 Hsol Hl Hl0 Hf HC Hcov.
  assert (Hx0' : Forall (fun j => 0 <= v_toQ valZ j)%Q x).
  { eapply Forall_impl; [|exact Hx0]. intros j Hj. cbn. change 0%Q with (inject_Z 0). rewrite <- Zle_Qle. exact Hj. }
  assert (Hl0' : (0 <= v_toQ valZ l)%Q) by (cbn; change 0%Q with (inject_Z 0); rewrite <- Zle_Qle; exact Hl0).
  destruct (sblo_supported valZ p t x l Ht ltac:(lia) Hh Hx Hx0' Hl0' Hcov) as (zs0 & q & _ & Hval).
  rewrite Hd in Hval. change (Z.to_nat 1) with 1%nat in Hval.
  unfold sblo_hit, call_certain_within in HC.
  apply obind_inv in HC as (w & Hw & HC).
  assert (Ew : w = true).
  { pose proof (feasible_length _ _ Hf) as HLn. apply feasible_box in Hf.
    destruct (within_upper_spec valZ (l_bounds p) x (Qeq_refl 0) HLn) as (b & Hb & Hiff).
    cbn [into_sblo b_bounds] in Hw. rewrite (proj2 Hiff Hf) in Hb. congruence. }
  subst w.
  unfold apply_loads_over_time in HC.
  rewrite certain_call_certain in HC by exact Ht.
  replace (t - 1 + 1) with t in HC by lia.
  assert (EL : access (map (fun l0 => [v_toQ valZ l0]) (b_load (into_sblo p))) t = Some [inject_Z l]).
  { unfold access in *. cbn [into_sblo b_load]. rewrite map_length. destruct (_ && _); [|discriminate].
    rewrite nth_error_map, Hl. reflexivity. }
  rewrite EL in HC. cbn [from_option obind] in HC. clear EL.
  unfold apply_loads in HC. cbn [length Nat.eqb negb] in HC.
  destruct (_ <? _)%nat in HC; [discriminate|].
  destruct (negb _) in HC; [discriminate|].
  destruct (minimize _ _ _ _) as [[zs val]|] eqn:EM in HC; cbn [from_option obind fst snd] in HC; [|discriminate].
  unfold new_fractions in HC. cbn [into_sblo b_d] in HC. rewrite Hd in HC. change (Z.to_nat 1) with 1%nat in HC.
  rewrite (single_fractions (into_sblo p) t x (inject_Z l) _ zs0 Hd) in HC.
  cbn [valZ v_toQ] in Hval.
  destruct (sblo_objective valZ (into_sblo p) t x [inject_Z l] (mkFractions zs0 1 1)) as [[o|f]|?|]; cbn [objective_value] in Hval; try discriminate.
  cbn [obind] in HC. destruct (eleb val (obj_total o) && eleb (obj_total o) val)%bool eqn:EE; [|discriminate].
  assert (Hc : c_cost c = val) by (match type of HC with Ok ?k = Ok c => assert (k = c) by congruence end; subst c; reflexivity).
  rewrite Hc. apply andb_true_iff in EE as [E1 _]. assert (obj_total o = Fin q) as Eo by congruence. rewrite Eo in E1.
  destruct val; [exact I|discriminate].
Qed.

Lemma slo_single minimize s sched o (p : gslo Z) :
  verify_slo valZ p = Ok tt -> l_d p = 1 -> Z.of_nat (length (l_hitting p)) = 1 -> 1 <= l_tend p ->
  solver_reports minimize ->
  evaluable (sblo_hit valZ minimize (into_sblo p)) (l_tend p) (l_bounds p) ->
  (forall t l, 1 <= t <= l_tend p -> access (l_load p) t = Some l -> l <= hd 0 (l_bounds p)) ->
  (0 <= fo_alpha o)%Q -> fo_l o = None ->
  exists xs c,
    offline_solve (slo_ops s) (optimal_search_slo minimize sched o) p = Ok (xs, c) /\
    slo_objective_fn s p 1 xs = Ok c /\ is_fin (c_cost c) /\ covers p xs /\
    cheapest (slo_objective_fn s p (fo_alpha o)) (l_tend p) (l_bounds p) xs.
Proof.
  intros HV Hd Hh0 HT Hsol Hev Hload Ha Hl.
  assert (Hh : Z.of_nat (length (l_hitting p)) = l_d p) by lia.
  assert (HV' := HV). apply slo_verified in HV'; [|exact Hh].
  assert (Hfin : forall t x c, 1 <= t <= l_tend p -> feasible_config (l_bounds p) x ->
    sblo_hit valZ minimize (into_sblo p) t x = Ok c -> forall l, access (l_load p) t = Some l ->
    (inject_Z l <= Qsum (map inject_Z x))%Q -> is_fin (c_cost c)).
  { intros t x c Ht Hx Hc l Hl1 Hcov. destruct (slo_load p HV' t Ht) as (l' & Hl' & Hl0).
    assert (l' = l) by congruence. subst l'. destruct (slo_shape p HV' x Hx) as [Hlen Hx0].
    apply (single_assignable minimize p t x c l); auto. lia. }
  assert (Hcap : capacity_suffices (sblo_hit valZ minimize (into_sblo p)) (l_tend p) (l_bounds p)).
  { intros t Ht. assert (Hb : feasible_config (l_bounds p) (l_bounds p)).
    { apply full_feasible. destruct HV' as ((_ & _ & _ & _ & Hpos & _) & _). eapply Forall_impl; [|exact Hpos].
      intros u Hu. unfold is_positive in Hu. cbn in Hu. change 0%Q with (inject_Z 0) in Hu. rewrite <- Zlt_Qlt in Hu. lia. }
    destruct (Hev t _ Ht Hb) as (c & Hc). exists c. split; [exact Hc|].
    destruct (slo_load p HV' t Ht) as (l & Hl1 & _). eapply Hfin; eauto.
    specialize (Hload t l Ht Hl1). destruct HV' as ((_ & _ & H3 & _) & _).
    destruct (l_bounds p) as [|u [|? ?]]; simpl in H3; try lia. simpl in Hload |- *.
    rewrite Qplus_0_r. rewrite <- Zle_Qle. exact Hload. }
  destruct (slo_solved minimize s sched o p HV Hh HT Hsol Hev Hcap Ha Hl) as (xs & c & H1 & H2 & H3 & H4 & H5 & H6).
  exists xs, c. repeat (split; [assumption|]).
  destruct H6 as (Hf & c1 & Hc1 & Hf1 & Hmin). split; [exact Hf|]. exists c1. split; [exact Hc1|]. split; [exact Hf1|].
  intros ys Hy _. 
  destruct (slo_objective_total s p HV' Hh (fo_alpha o) ys Hy) as (c2 & Hc2 & E2).
  destruct (c_cost c2) as [q|] eqn:Eq.
  - apply Hmin; [exact Hy|]. intros i x Hi. destruct (slot_of p ys i x Hy Hi) as [Ht Hx].
    destruct (Hev _ _ Ht Hx) as (d & Hd1). rewrite Z.add_comm. exists d. split; [exact Hd1|].
    assert (HF : is_fin (Fin q)) by exact I. apply (is_fin_eeq _ _ E2) in HF.
    pose proof (total_cost_finite _ _ _ _ _ _ HF i x Hi) as HFi. cbv beta in HFi.
    destruct (slo_load p HV' _ Ht) as (l & Hl1 & _). destruct (slo_shape p HV' x Hx) as [Hlen Hx0].
    eapply Hfin; eauto. unfold hit_of in HFi. rewrite (slo_value valZ p _ x l ltac:(lia) Hh Hlen Hl1) in HFi.
    destruct (Qltb (config_total valZ x) (v_toQ valZ l)) eqn:EQ; [destruct HFi|]. apply Qltb_false in EQ. exact EQ.
  - exists c2. split; [exact Hc2|]. rewrite Eq. destruct (c_cost c1); exact I.
Qed.
