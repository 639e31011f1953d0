(** Proofs about solving offline problems end to end. *)
From Coq Require Import Lia Lqa.
From Verif Require Import NumLemmas GraphSearchSpec GraphSearchProofs ApproxRatioProofs ObjectiveProofs
  CostSpec CostProofs ConvertProofs ConvertObjective VerifySpec VerifyProofs LoadProofs LoadObjective BudgetSpec
  OfflineModel OfflineSpec OfflineProofs OfflineFail OfflineLoads OfflineApprox.
From Verif Require Import ProblemModel CostModel.
Local Open Scope Z_scope.

(** *** Total costs *)
Lemma total_cost_alpha {X} (f : Z -> X -> ext) sw a b : forall xs t prev,
  is_fin (total_cost f sw a t prev xs) -> is_fin (total_cost f sw b t prev xs).
Proof.
  induction xs as [|x xs IH]; intros t prev H; cbn [total_cost] in *; [exact I|].
  apply is_fin_eadd in H as [H1 H2]. apply is_fin_eadd in H1 as [H1 _]. specialize (IH _ _ H2).
  destruct (f t x), (total_cost f sw b (t + 1) x xs); simpl in *; tauto.
Qed.

Lemma total_cost_finite {X} (f : Z -> X -> ext) sw a : forall xs t prev,
  is_fin (total_cost f sw a t prev xs) -> forall i x, nth_error xs i = Some x -> is_fin (f (t + Z.of_nat i) x).
Proof.
  induction xs as [|y xs IH]; intros t prev H i x Hi; [destruct i; discriminate|]. cbn [total_cost] in H.
  apply is_fin_eadd in H as [H1 H2]. apply is_fin_eadd in H1 as [H1 _]. destruct i as [|i]; simpl in Hi.
  - assert (y = x) by congruence. subst. rewrite Z.add_0_r. exact H1.
  - replace (t + Z.of_nat (S i)) with (t + 1 + Z.of_nat i) by lia. eapply IH; eauto.
Qed.

Lemma total_cost_at {X} (f g : Z -> X -> ext) sw a : forall xs t prev,
  (forall i x, nth_error xs i = Some x -> eeq (f (t + Z.of_nat i) x) (g (t + Z.of_nat i) x)) ->
  eeq (total_cost f sw a t prev xs) (total_cost g sw a t prev xs).
Proof.
  induction xs as [|y xs IH]; intros t prev H; cbn [total_cost]; [apply eeq_refl|].
  pose proof (H 0%nat y eq_refl) as H0. rewrite Z.add_0_r in H0. rewrite H0. rewrite IH; [apply eeq_refl|].
  intros i x Hi. replace (t + 1 + Z.of_nat i) with (t + Z.of_nat (S i)) by lia. apply H. exact Hi.
Qed.

(** The objective of a feasible schedule of a problem whose movement costs are those of [sw]. *)
Lemma objective_generic {C D} (merge : C -> C -> C) (outside : D) s (P : oproblem (list Z) C D) d t_end bounds sw h alpha xs :
  op_tend P = t_end -> Z.of_nat (length bounds) = d -> Z.of_nat (length sw) = d ->
  (forall a b i, op_move P a b i = scaled_movement_o inject_Z sw b a i) ->
  feasible_schedule t_end bounds xs ->
  (forall i x, nth_error xs i = Some x -> op_hit P (1 + Z.of_nat i) x = Ok (h (1 + Z.of_nat i) x)) ->
  exists c, objective_o merge s P xs (repeat 0 (Z.to_nat d)) alpha false t_end = Ok c /\
    eeq (c_cost c) (total_cost (fun t x => c_cost (h t x)) (switching sw false) alpha 1 (repeat 0 (Z.to_nat d)) xs).
Proof.
  intros HT Hb Hsw Hm [Hl Hx] Hh.
  set (V := mkSSCO d t_end bounds sw h : ssco C D).
  exists (objective_with_default merge s (ssco_problem outside V) xs (repeat 0 (Z.to_nat d)) alpha false t_end). split.
  - unfold objective_o, objective_with_default, sum_over_schedule.
    rewrite omap_ext with (g := fun t => Ok (step_cost (ssco_problem outside V) alpha false t
      (get_or xs (repeat 0 (Z.to_nat d)) (t - 1)) (get_or xs (repeat 0 (Z.to_nat d)) t))).
    { rewrite omap_Ok. reflexivity. }
    intros t Ht. apply zrange_In in Ht. unfold step_cost_o, step_cost. rewrite HT.
    cbn [ssco_problem p_tend p_hit p_move]. change (s_tend V) with t_end.
    rewrite Forall_forall in Hx.
    assert (HI : nth_error xs (Z.to_nat (t - 1)) = Some (get_or xs (repeat 0 (Z.to_nat d)) t)).
    { unfold get_or, access. replace ((1 <=? t) && (t <=? Z.of_nat (length xs)))%bool with true by (symmetry; lia).
      destruct (nth_error xs (Z.to_nat (t - 1))) eqn:E; [reflexivity|]. apply nth_error_None in E. lia. }
    assert (HF : feasible_config bounds (get_or xs (repeat 0 (Z.to_nat d)) t)) by (apply Hx; eapply nth_error_In, HI).
    assert (HL : length (get_or xs (repeat 0 (Z.to_nat d)) (t - 1)) = length bounds).
    { destruct (Z.eq_dec t 1) as [->|Ht1].
      - rewrite get_or_zero. rewrite repeat_length. lia.
      - apply feasible_length, Hx, get_or_cases. lia. }
    replace (t_end <? t) with false by (symmetry; apply Z.ltb_ge; lia).
    replace t with (1 + Z.of_nat (Z.to_nat (t - 1))) at 1 by lia. rewrite (Hh _ _ HI).
    replace (1 + Z.of_nat (Z.to_nat (t - 1))) with t by lia. cbn [obind].
    rewrite Hm, scaled_movement_o_total by (rewrite ?(feasible_length _ _ HF); lia). cbn [obind].
    unfold ssco_hit_cost. rewrite within_inside. change (s_bounds V) with bounds.
    rewrite (inside_feasible _ _ HF). reflexivity.
  - pose proof (objective_exact_spec merge outside s V xs (repeat 0 (Z.to_nat d)) alpha false Hl) as E.
    change (s_tend V) with t_end in E. rewrite E. cbn [V s_bounds s_hit s_switching].
    apply total_cost_at. intros i x Hi. unfold restricted. rewrite inside_feasible; [apply eeq_refl|].
    rewrite Forall_forall in Hx. apply Hx. eapply nth_error_In, Hi.
Qed.

Definition hit_of {C D} (dummy : D) (hit : Z -> list Z -> outcome (cost C D)) (t : Z) (x : list Z) : cost C D :=
  match hit t x with Ok c => c | _ => outside_cost dummy end.

(** *** SSCO *)
Section SSCO.
  Context {C D : Type}.
  Variable merge : C -> C -> C.
  Variable vmerge : C -> C -> outcome C.
  Variable outside : D.
  Variable s : split.
  Variable p : gssco Z C D.
  Notation hit := (gssco_hit valZ vmerge outside p).
  Notation solve := (offline_solve (ssco_ops valZ merge vmerge outside s)).
  Notation obj := (ssco_objective merge vmerge outside s p).
  Hypothesis Hwf : well_formed_ssco valZ p.
  Hypothesis Hev : evaluable hit (g_tend p) (g_bounds p).

  Lemma finite_alpha alpha beta xs c c' : feasible_schedule (g_tend p) (g_bounds p) xs ->
    obj alpha xs = Ok c -> is_fin (c_cost c) -> obj beta xs = Ok c' -> is_fin (c_cost c').
  Proof.
    intros Hf H1 Hfin H2.
    destruct (objective_cost vmerge outside p Hwf Hev merge s alpha xs Hf) as (d & Hd & Ed).
    destruct (objective_cost vmerge outside p Hwf Hev merge s beta xs Hf) as (e & He & Ee).
    assert (c = d) by congruence. assert (c' = e) by congruence. subst d e.
    eapply is_fin_eeq; [apply eeq_sym; exact Ee|]. unfold schedule_cost. eapply total_cost_alpha.
    unfold schedule_cost in Ed. eapply is_fin_eeq; [exact Ed|exact Hfin].
  Qed.

  Lemma solve_with algorithm alpha r (P : list (list Z) -> Prop) xs : algorithm p = Ok xs ->
    cheapest_within_among r P (obj alpha) (g_tend p) (g_bounds p) xs ->
    exists c, solve algorithm p = Ok (xs, c) /\ obj 1 xs = Ok c /\ is_fin (c_cost c).
  Proof.
    intros Halg (Hf & c & Hc & Hfin & _).
    destruct (objective_cost vmerge outside p Hwf Hev merge s 1 xs Hf) as (c1 & Hc1 & _).
    exists c1. split; [|split; [exact Hc1|exact (finite_alpha alpha 1 xs c c1 Hf Hc Hfin Hc1)]].
    unfold offline_solve. cbn [ssco_ops po_verify po_objective].
    assert (HV : verify_ssco valZ p = Ok tt) by (apply ssco_verified; exact Hwf).
    rewrite HV. cbn [obind]. rewrite Halg. cbn [obind].
    change (objective_o merge s (gssco_problem valZ vmerge outside p) xs (gzero valZ (g_d p)) 1 false (g_tend p)) with (obj 1 xs).
    rewrite Hc1. reflexivity.
  Qed.
End SSCO.

Lemma cheapest_within_1 {C D} (obj : list (list Z) -> outcome (cost C D)) P T bounds xs :
  cheapest_among P obj T bounds xs -> cheapest_within_among 1 P obj T bounds xs.
Proof.
  intros (Hf & c & Hc & Hfin & H). split; [exact Hf|]. exists c. split; [exact Hc|]. split; [exact Hfin|].
  intros ys Hy HP. destruct (H ys Hy HP) as (c' & Hc' & Hle). exists c'. split; [exact Hc'|].
  eapply ele_trans; [exact Hle|]. destruct (c_cost c'); simpl; [lra|exact I].
Qed.

Lemma ssco_solved {C D} merge vmerge (outside : D) s sched o (p : gssco Z C D) :
  verify_ssco valZ p = Ok tt -> 1 <= g_tend p ->
  evaluable (gssco_hit valZ vmerge outside p) (g_tend p) (g_bounds p) ->
  capacity_suffices (gssco_hit valZ vmerge outside p) (g_tend p) (g_bounds p) ->
  (0 <= fo_alpha o)%Q -> fo_l o = None ->
  exists xs c,
    offline_solve (ssco_ops valZ merge vmerge outside s) (optimal_search_ssco vmerge outside sched o) p = Ok (xs, c) /\
    ssco_objective merge vmerge outside s p 1 xs = Ok c /\ is_fin (c_cost c) /\
    cheapest (ssco_objective merge vmerge outside s p (fo_alpha o)) (g_tend p) (g_bounds p) xs.
Proof.
  intros HV HT Hev Hcap Ha Hl. apply ssco_verified in HV.
  destruct (optimal_search_correct vmerge outside p HV Hev sched o HT Hcap Ha Hl) as (xs & Hrun & Hopt).
  specialize (Hopt merge s).
  destruct (solve_with merge vmerge outside s p HV Hev (optimal_search_ssco vmerge outside sched o) _ _ _ _ Hrun (cheapest_within_1 _ _ _ _ _ Hopt))
    as (c & H1 & H2 & H3).
  exists xs, c. auto.
Qed.

Lemma usable_dec {C D} (hit : Z -> list Z -> outcome (cost C D)) T bounds :
  (1 <= T /\ capacity_suffices hit T bounds) \/ ~ (1 <= T /\ capacity_suffices hit T bounds).
Proof.
  destruct (Z_le_dec 1 T) as [HT|HT]; [|right; tauto].
  set (f := fun t => match hit t bounds with Ok c => match c_cost c with Fin _ => true | Inf => false end | _ => false end).
  destruct (forallb f (zrange 1 T)) eqn:E.
  - left. split; [exact HT|]. intros t Ht. rewrite forallb_forall in E.
    specialize (E t (proj2 (zrange_In 1 T t) Ht)). unfold f in E.
    destruct (hit t bounds) as [c| |]; try discriminate. exists c. split; [reflexivity|]. destruct (c_cost c); [exact I|discriminate].
  - right. intros [_ H]. assert (E' : forallb f (zrange 1 T) = true); [|congruence].
    apply forallb_forall. intros t Ht. apply zrange_In in Ht. destruct (H t Ht) as (c & Hc & Hf). unfold f. rewrite Hc.
    destruct (c_cost c); [reflexivity|destruct Hf].
Qed.

Lemma ssco_answers {C D} merge vmerge (outside : D) s sched o (p : gssco Z C D) :
  verify_ssco valZ p = Ok tt -> evaluable (gssco_hit valZ vmerge outside p) (g_tend p) (g_bounds p) ->
  (0 <= fo_alpha o)%Q -> fo_l o = None ->
  let r := offline_solve (ssco_ops valZ merge vmerge outside s) (optimal_search_ssco vmerge outside sched o) p in
  let usable := 1 <= g_tend p /\ capacity_suffices (gssco_hit valZ vmerge outside p) (g_tend p) (g_bounds p) in
  ((exists xs c, r = Ok (xs, c)) <-> usable) /\ (~ usable -> r = Panic).
Proof.
  intros HV Hev Ha Hl r usable. assert (HP : ~ usable -> r = Panic).
  { intros Hno. unfold r, offline_solve. cbn [ssco_ops po_verify po_objective]. rewrite HV. cbn [obind].
    rewrite search_panics; auto. apply ssco_verified. exact HV. }
  split; [split|exact HP].
  - intros (xs & c & Hr).
    destruct (usable_dec (gssco_hit valZ vmerge outside p) (g_tend p) (g_bounds p)) as [H|H]; [exact H|].
    rewrite (HP H) in Hr. discriminate.
  - intros [HT Hcap]. destruct (ssco_solved merge vmerge outside s sched o p HV HT Hev Hcap Ha Hl) as (xs & c & H & _).
    exists xs, c. exact H.
Qed.

Lemma ssco_rejects {C D} merge vmerge (outside : D) s sched o (p : gssco Z C D) :
  let r := offline_solve (ssco_ops valZ merge vmerge outside s) (optimal_search_ssco vmerge outside sched o) p in
  (~ well_formed_ssco valZ p -> r = Err Invalid) /\
  (well_formed_ssco valZ p -> forall l, fo_l o = Some l -> r = Err UnsupportedLConstrainedMovement).
Proof.
  intros r. unfold r, offline_solve. cbn [ssco_ops po_verify po_objective].
  destruct (ssco_verified Z C D valZ p) as [Hiff Hor]. split.
  - intros Hn. destruct Hor as [H|H]; [destruct Hn; apply Hiff; exact H|]. rewrite H. reflexivity.
  - intros Hwf l Hl. rewrite (proj2 Hiff Hwf). cbn [obind]. rewrite (limited_search vmerge outside p sched o l Hwf Hl). reflexivity.
Qed.
