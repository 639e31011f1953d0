(** Proofs about solving offline problems. *)
From Coq Require Import Lia Lqa.
From Verif Require Import NumLemmas GraphSearchSpec GraphSearchProofs ApproxSearchProofs ObjectiveProofs CostSpec CostProofs
  ConvertProofs ConvertObjective VerifySpec VerifyProofs LoadProofs LoadObjective OfflineModel OfflineSpec.
From Verif Require Import ProblemModel CostModel.
Local Open Scope Z_scope.

Lemma is_fin_eeq a b : eeq a b -> is_fin a -> is_fin b.
Proof. destruct a, b; simpl; tauto. Qed.

(** ** Decision spaces *)
Lemma feasible_box bounds x : feasible_config bounds x <-> in_box valZ bounds x.
Proof.
  unfold feasible_config, in_box. cbn [valZ v_toQ]. split; intros H; induction H; constructor; auto.
  - change 0%Q with (inject_Z 0). rewrite <- !Zle_Qle. lia.
  - change 0%Q with (inject_Z 0) in H. rewrite <- !Zle_Qle in H. lia.
Qed.

Lemma feasible_length bounds x : feasible_config bounds x -> length x = length bounds.
Proof. intros H. induction H; simpl; auto. Qed.

Lemma full_feasible bounds : Forall (fun u => 0 <= u) bounds -> feasible_config bounds bounds.
Proof. intros H. induction H; constructor; auto; lia. Qed.

Lemma configs_of_In axes : forall x, In x (configs_of axes) <-> Forall2 (fun j a => In j a) x axes.
Proof.
  induction axes as [|a axes IH]; intros x; simpl.
  - split; [intros [<-|[]]; constructor|]. intros H. inversion H; subst. auto.
  - rewrite in_flat_map. split.
    + intros (j & Hj & H). apply in_map_iff in H as (y & <- & Hy). constructor; auto. apply IH. exact Hy.
    + intros H. inversion H; subst. exists x0. split; auto. apply in_map_iff. exists l. split; auto. apply IH. auto.
Qed.

Lemma zrange_configs bounds : forall x, In x (configs_of (map (zrange 0) bounds)) -> feasible_config bounds x.
Proof.
  intros x H. apply configs_of_In in H. revert x H. induction bounds as [|u bs IH]; intros x H; simpl in H; inversion H; subst.
  - constructor.
  - constructor; [apply zrange_In in H3; lia|]. apply IH. exact H4.
Qed.

Lemma values_configs bounds values : Forall (fun v => 0 <= v) values ->
  forall x, In x (configs_of (map (fun u => filter (fun j => j <=? u) values) bounds)) -> feasible_config bounds x.
Proof.
  intros Hv x H. apply configs_of_In in H. revert x H. induction bounds as [|u bs IH]; intros x H; simpl in H; inversion H; subst.
  - constructor.
  - constructor; [|apply IH; exact H4]. apply filter_In in H3 as [H3 H5]. rewrite Forall_forall in Hv.
    specialize (Hv _ H3). lia.
Qed.

Section SSCO.
  Context {C D : Type}.
  Variable vmerge : C -> C -> outcome C.
  Variable outside : D.
  Variable p : gssco Z C D.
  Notation hit := (gssco_hit valZ vmerge outside p).
  Notation view := (search_view vmerge outside p).
  Hypothesis Hwf : well_formed_ssco valZ p.
  Hypothesis Hev : evaluable hit (g_tend p) (g_bounds p).

  Lemma wf_bounds_pos : Forall (fun u => 0 < u) (g_bounds p).
  Proof.
    destruct Hwf as (_ & _ & _ & _ & H & _). eapply Forall_impl; [|exact H]. intros u Hu.
    unfold is_positive in Hu. cbn in Hu. change 0%Q with (inject_Z 0) in Hu. rewrite <- Zlt_Qlt in Hu. exact Hu.
  Qed.

  Lemma view_hit t x c : feasible_config (g_bounds p) x -> hit t x = Ok c -> s_hit view t x = c.
  Proof.
    intros Hx H. rewrite gssco_hit_inside in H; [|reflexivity|apply feasible_box; exact Hx].
    simpl. rewrite H. reflexivity.
  Qed.

  Lemma hit_view t x : 1 <= t <= g_tend p -> feasible_config (g_bounds p) x ->
    hit t x = Ok (s_hit view t x).
  Proof.
    intros Ht Hx. destruct (Hev t x Ht Hx) as (c & Hc). rewrite (view_hit t x c Hx Hc). exact Hc.
  Qed.

  Lemma view_inside t x : feasible_config (g_bounds p) x -> ssco_hit_cost outside view t x = s_hit view t x.
  Proof.
    intros Hx. unfold ssco_hit_cost. replace (within (s_bounds view) x) with true; [reflexivity|].
    symmetry. cbn [s_bounds search_view]. revert Hx. generalize (g_bounds p). intros bounds Hx.
    induction Hx as [|u j bs y H Hx IH]; simpl; auto.
    rewrite IH. destruct (Z.leb_spec 0 j), (Z.leb_spec j u); simpl; auto; lia.
  Qed.

  Lemma view_searchable : 1 <= g_tend p -> capacity_suffices hit (g_tend p) (g_bounds p) -> searchable view.
  Proof.
    intros HT Hcap. pose proof wf_bounds_pos as Hpos. destruct Hwf as (H1 & H2 & H3 & H4 & H5 & H6).
    assert (Hnn : Forall (fun u => 0 <= u) (g_bounds p)) by (eapply Forall_impl; [|exact Hpos]; intros; simpl in *; lia).
    unfold searchable. simpl. repeat split.
    - intros E. rewrite E in H3. simpl in H3. lia.
    - lia.
    - lia.
    - eapply Forall_impl; [|exact H6]. intros; simpl in *; lra.
    - exact HT.
    - exact Hnn.
    - destruct (g_bounds p); [constructor|]. inversion Hpos; auto.
    - intros t Ht. destruct (Hcap t Ht) as (c & Hc & Hf).
      pose proof (view_hit t (g_bounds p) c (full_feasible _ Hnn) Hc) as E. simpl in E. rewrite E. exact Hf.
  Qed.

  (** The objective of a feasible schedule. *)
  Lemma get_or_cases {X} (xs : list X) x0 t : 1 <= t <= Z.of_nat (length xs) -> In (get_or xs x0 t) xs.
  Proof.
    intros Ht. unfold get_or, access. destruct (_ && _) eqn:E.
    - destruct (nth_error xs _) eqn:E'; [eapply nth_error_In; exact E'|]. apply nth_error_None in E'. lia.
    - exfalso. apply andb_false_iff in E. rewrite Z.leb_gt in E. rewrite Z.leb_gt in E. lia.
  Qed.

  Lemma get_or_zero {X} (xs : list X) x0 : get_or xs x0 0 = x0.
  Proof. unfold get_or, access. reflexivity. Qed.

  Lemma objective_view merge s alpha xs : feasible_schedule (g_tend p) (g_bounds p) xs ->
    ssco_objective merge vmerge outside s p alpha xs
    = Ok (objective_with_default merge s (ssco_problem outside view) xs (zero_config (s_d view)) alpha false (s_tend view)).
  Proof.
    intros [Hl Hx]. unfold ssco_objective, objective_o, objective_with_default, sum_over_schedule.
    destruct Hwf as (H1 & H2 & H3 & H4 & H5 & H6). rewrite Forall_forall in Hx.
    change (s_tend view) with (g_tend p).
    rewrite omap_ext with (g := fun t => Ok (step_cost (ssco_problem outside view) alpha false t
      (get_or xs (zero_config (s_d view)) (t - 1)) (get_or xs (zero_config (s_d view)) t))).
    { rewrite omap_Ok. reflexivity. }
    intros t Ht. apply zrange_In in Ht. unfold step_cost_o, step_cost.
    cbn [op_tend gssco_problem op_hit op_move ssco_problem p_tend p_hit p_move].
    change (s_tend view) with (g_tend p).
    assert (HF : feasible_config (g_bounds p) (get_or xs (zero_config (s_d view)) t)) by (apply Hx, get_or_cases; lia).
    assert (HL : length (get_or xs (zero_config (s_d view)) (t - 1)) = length (g_bounds p)).
    { destruct (Z.eq_dec t 1) as [->|Ht1].
      - rewrite get_or_zero. unfold zero_config. rewrite repeat_length. simpl. lia.
      - apply feasible_length, Hx, get_or_cases. lia. }
    replace (g_tend p <? t) with false by (symmetry; apply Z.ltb_ge; lia).
    change (repeat 0 (Z.to_nat (g_d p))) with (zero_config (s_d view)).
    rewrite hit_view by (auto; lia). cbn [obind].
    rewrite view_inside by exact HF.
    unfold gssco_move. rewrite scaled_movement_o_total by (rewrite ?(feasible_length _ _ HF); lia).
    reflexivity.
  Qed.

  Lemma objective_cost merge s alpha xs : feasible_schedule (g_tend p) (g_bounds p) xs ->
    exists c, ssco_objective merge vmerge outside s p alpha xs = Ok c /\ eeq (c_cost c) (schedule_cost view alpha false xs).
  Proof.
    intros H. rewrite objective_view by exact H. eexists. split; [reflexivity|].
    apply schedule_cost_objective. destruct H as [H _]. exact H.
  Qed.

  Lemma searched_ok axes r path cache :
    r = Ok (path, cache) -> (forall x, In x (configs_of axes) -> feasible_config (g_bounds p) x) ->
    searched vmerge outside p axes r = Ok (gp_xs path).
  Proof.
    intros -> Hx. unfold searched. cbn [obind fst].
    destruct (omap_exists (fun t => omap (hit t) (configs_of axes)) (zrange 1 (g_tend p))) as [u Hu].
    { intros t Ht. apply zrange_In in Ht. apply omap_exists. intros x Hin. apply Hev; [lia|]. apply Hx. exact Hin. }
    rewrite Hu. reflexivity.
  Qed.

  Lemma optimal_search_correct sched o : 1 <= g_tend p -> capacity_suffices hit (g_tend p) (g_bounds p) ->
    (0 <= fo_alpha o)%Q -> fo_l o = None ->
    exists xs, optimal_search_ssco vmerge outside sched o p = Ok xs /\
      forall merge s, cheapest (ssco_objective merge vmerge outside s p (fo_alpha o)) (g_tend p) (g_bounds p) xs.
  Proof.
    intros HT Hcap Ha Hl. pose proof (view_searchable HT Hcap) as HS.
    destruct (optimal_graph_search_correct outside sched view (fo_inverted o) (fo_alpha o) HS Ha)
      as (path & cache & Hrun & Hf & Hfin & Hcost & Hopt).
    exists (gp_xs path). split.
    - unfold optimal_search_ssco. rewrite Hl. eapply searched_ok; [exact Hrun|apply zrange_configs].
    - intros merge s. split; [exact Hf|].
      destruct (objective_cost merge s (fo_alpha o) _ Hf) as (c & Hc & Ec). exists c. split; [exact Hc|].
      split; [apply (is_fin_eeq _ _ (eeq_trans _ _ _ Hcost (eeq_sym _ _ Ec))); exact Hfin|]. intros ys Hys _.
      destruct (objective_cost merge s (fo_alpha o) _ Hys) as (c' & Hc' & Ec'). exists c'. split; [exact Hc'|].
      rewrite Ec, Ec', <- Hcost. apply Hopt. exact Hys.
  Qed.
End SSCO.
