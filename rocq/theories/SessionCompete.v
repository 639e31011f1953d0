(** Lazy capacity provisioning in a session. *)
From Coq Require Import Lia Lqa.
From Verif Require Import NumLemmas CostSpec CostProofs ConvertProofs ConvertObjective VerifySpec VerifyProofs GraphSearchSpec ApproxRatioProofs LoadProofs ObjectiveSpec ObjectiveProofs
  CapacityModel CapacitySpec CapacityProofs OfflineModel OfflineSpec OfflineProofs OfflineEnd OneTypeSpec StreamModel StreamSpec SessionModel SessionSpec SessionStream SessionLcp.
From Verif Require Import ProblemModel CostModel.
Local Open Scope Z_scope.

Section Compete.
  Context {C D : Type}.
  Variable merge : C -> C -> C.
  Variable vmerge : C -> C -> outcome C.
  Variable outside : D.
  Variable s : split.
  Variable q : gssco Z C D.
  Variables (cap : Z) (beta : Q).
  Notation hit := (gssco_hit valZ vmerge outside q).
  Notation ops := (ssco_ops valZ merge vmerge outside s).
  Hypothesis HV : verify_ssco valZ q = Ok tt.
  Hypothesis HB : g_bounds q = [cap].
  Hypothesis HSW : g_switching q = [beta].
  Hypothesis Hev : evaluable hit (g_tend q) (g_bounds q).
  Hypothesis Hcap : capacity_suffices hit (g_tend q) (g_bounds q).
  Hypothesis Hconv : forall t, 1 <= t <= g_tend q -> convex_on cap (fun j => cost_of (hit t [j])).
  Hypothesis Hnn : forall t j, 1 <= t <= g_tend q -> 0 <= j <= cap -> ele (Fin 0) (cost_of (hit t [j])).
  Hypothesis Hone : forall t x rs, 1 <= t <= g_tend q -> call_predictive (g_cost q) t x = Ok rs -> length rs = 1%nat.

  Notation V := (search_view vmerge outside q).

  (** The instance, with costs of zero after the day. *)
  Definition padded : ssco C D :=
    mkSSCO 1 (g_tend q) [cap] [beta] (fun t x => if t <=? g_tend q then s_hit V t x else cost_default).
  Notation phit := (fun t x => c_cost (s_hit padded t x)).

  Lemma q_wf : well_formed_ssco valZ q.
  Proof. apply ssco_verified. exact HV. Qed.
  Lemma q_d : g_d q = 1.
  Proof. destruct q_wf as (_ & _ & W & _). rewrite HB in W. cbn in W. lia. Qed.
  Lemma cap_pos : 0 < cap.
  Proof. pose proof (wf_bounds_pos q q_wf) as H. rewrite HB in H. exact (Forall_inv H). Qed.
  Lemma beta_nonneg : (0 <= beta)%Q.
  Proof. destruct q_wf as (_ & _ & _ & _ & _ & W). rewrite HSW in W. apply Forall_inv in W. lra. Qed.

  Lemma hit_padded t j : 1 <= t <= g_tend q -> 0 <= j <= cap -> cost_of (hit t [j]) = phit t [j].
  Proof.
    intros Ht Hj. cbn [padded s_hit]. destruct (t <=? g_tend q) eqn:E; [|apply Z.leb_gt in E; lia].
    rewrite (hit_view vmerge outside q Hev t [j] Ht); [reflexivity|]. rewrite HB. constructor; [lia|constructor].
  Qed.

  Lemma padded_costs : capacity_costs phit cap beta.
  Proof.
    pose proof cap_pos as Hc. constructor.
    - lia.
    - exact beta_nonneg.
    - intros t Ht. destruct (Z_le_gt_dec t (g_tend q)) as [Hle|Hgt].
      + intros a b c qa qc Hab Hbc Ea Ec. destruct (Hconv t ltac:(lia) a b c qa qc Hab Hbc) as (qb & Eb & HL).
        * rewrite hit_padded by lia. exact Ea.
        * rewrite hit_padded by lia. exact Ec.
        * exists qb. split; [|exact HL]. rewrite hit_padded in Eb by lia. exact Eb.
      + intros a b c qa qc Hab Hbc Ea Ec. cbn [padded s_hit] in *. destruct (t <=? g_tend q) eqn:E; [apply Z.leb_le in E; lia|].
        cbn in Ea, Ec |- *. injection Ea as <-. injection Ec as <-. exists 0%Q. split; [reflexivity|]. lra.
    - intros t Ht. destruct (Z_le_gt_dec t (g_tend q)) as [Hle|Hgt].
      + rewrite <- hit_padded by lia. destruct (Hcap t ltac:(lia)) as (c & Hc' & Hf). rewrite HB in Hc'. rewrite Hc'. exact Hf.
      + cbn [padded s_hit]. destruct (t <=? g_tend q) eqn:E; [apply Z.leb_le in E; lia|]. exact I.
    - intros t j Ht Hj. destruct (Z_le_gt_dec t (g_tend q)) as [Hle|Hgt].
      + rewrite <- hit_padded by lia. apply Hnn; lia.
      + cbn [padded s_hit]. destruct (t <=? g_tend q) eqn:E; [apply Z.leb_le in E; lia|]. cbn. lra.
  Qed.

  (** *** The bounds *)
  Lemma bound_padded inverted t t0 x : 0 <= t0 -> 0 <= t <= g_tend q ->
    find_bound_ssco vmerge outside (until q t) inverted 0 t t0 x
    = find_bound_i outside (mkSSCO (s_d padded) t (s_bounds padded) (s_switching padded) (s_hit padded)) 1 inverted 0 t t0 x.
  Proof.
    intros Ht0 Ht. unfold find_bound_ssco, find_bound_i. cbn [until padded g_d g_tend s_d s_tend]. rewrite q_d, Z.ltb_irrefl.
    change (negb (1 =? 1)) with false. cbn [negb]. destruct (t <=? 0); [reflexivity|]. cbv zeta.
    set (p' := mkGSSCO _ _ _ _ _).
    assert (EH : forall u y, 1 <= u <= t - t0 -> call_mean vmerge (g_cost p') u y = call_mean vmerge (g_cost q) (u + t0) y).
    { intros u y Hu. cbn [p' g_cost ssco_reset until]. rewrite (Z.add_comm u t0). apply (reset_same vmerge (g_cost q) t0 u y); try lia.
      intros _ rs Hrs. apply (Hone (t0 + 1) y rs); [lia|exact Hrs]. }
    assert (ES : optimal_graph_search_1d outside (search_view vmerge outside p') x inverted 1 None
      = optimal_graph_search_1d outside (ssco_extend (ssco_shift (mkSSCO (s_d padded) t (s_bounds padded) (s_switching padded) (s_hit padded)) t0) 0) x inverted 1 None).
    { apply search_1d_ext.
      - exact q_d.
      - reflexivity.
      - exact HB.
      - exact HSW.
      - cbn [ssco_extend ssco_shift s_tend s_hit search_view padded]. intros u y Hu.
        destruct (1 <=? u + t0) eqn:E; [|apply Z.leb_gt in E; lia]. destruct (u + t0 <=? g_tend q) eqn:E'; [|apply Z.leb_gt in E'; lia].
        rewrite EH by lia. reflexivity. }
    rewrite ES. cbn [padded s_d s_bounds s_switching s_hit].
    destruct (omap_exists (fun u => omap (gssco_hit valZ vmerge outside p' u) (configs_of (map (zrange 0) (g_bounds p')))) (zrange 1 (g_tend p'))) as [w Hw].
    { intros u Hu. apply zrange_In in Hu. apply omap_exists. intros y Hy. apply zrange_configs in Hy.
      cbn [p' g_tend g_bounds until ssco_reset] in Hu, Hy.
      destruct (Hev (u + t0) y ltac:(lia) Hy) as (c & Hc). exists c. rewrite <- Hc.
      unfold gssco_hit, call_mean_within. change (g_bounds p') with (g_bounds q). destruct (within_upper valZ (g_bounds q) y) as [[|]| |]; cbn [obind]; try reflexivity.
      apply EH. lia. }
    change (g_tend p') with (g_tend (ssco_reset (until q t) t0) + 0) in Hw. rewrite Hw. reflexivity.
  Qed.

  Lemma lcp_padded t xs bs : 0 <= t <= g_tend q ->
    lcp_ssco vmerge outside (mkOnline (until q t) 0) t xs bs
    = do r <- lcp valZ (integral_online outside padded 0 t) t xs bs; Ok (fst r, Some (snd r)).
  Proof.
    intros Ht. unfold lcp_ssco. f_equal. unfold lcp, integral_online. cbn [on_p on_w bo_d bo_tend bo_w bo_lower bo_upper until g_d g_tend padded s_d s_tend].
    rewrite q_d. change (negb (1 =? 1)) with false. cbn [negb]. destruct (negb _); [reflexivity|].
    destruct (find_initial_time valZ bs) as [st| |] eqn:EI; cbn [obind]; try reflexivity. apply initial_time_nonneg in EI.
    destruct (now_value valZ xs); cbn [obind]; try reflexivity.
    change (mkGSSCO (g_d q) t (g_bounds q) (g_switching q) (g_cost q)) with (until q t).
    rewrite !(bound_padded _ t) by lia. reflexivity.
  Qed.

  (** *** The run *)
  Lemma steps_chosen : forall n xs mem xs' mem', Z.of_nat (length xs + n) <= g_tend q ->
    lcp_steps valZ (integral_online outside padded 0) n xs mem = Ok (xs', mem') ->
    exists ys, xs' = xs ++ ys /\ length ys = n /\ chooses ops (lcp_ssco vmerge outside) lcp_memory (mkOnline q 0) xs mem ys mem'.
  Proof.
    induction n as [|n IH]; intros xs mem xs' mem' Hn H; cbn [lcp_steps] in H.
    - injection H as <- <-. exists []. rewrite app_nil_r. repeat split. constructor.
    - apply obind_Ok in H as ([x b] & Hx & H). cbn [fst snd] in H.
      destruct (IH (xs ++ [x]) (Some b) xs' mem') as (ys & -> & HL & HC); [rewrite app_length; cbn [length]; lia|exact H|].
      exists (x :: ys). split; [rewrite <- app_assoc; reflexivity|]. split; [cbn [length]; lia|]. econstructor; [|exact HC]. unfold lcp_next in Hx.
      change (at_slot ops (mkOnline q 0) (Z.of_nat (length xs) + 1)) with (mkOnline (until q (Z.of_nat (length xs) + 1)) 0).
      rewrite lcp_padded by lia. unfold lcp_memory. destruct mem; rewrite Hx; reflexivity.
  Qed.

  Lemma steps_split o : forall a b (xs : list (list Z)) mem,
    lcp_steps valZ o (a + b) xs mem = do r <- lcp_steps valZ o a xs mem; lcp_steps valZ o b (fst r) (snd r).
  Proof.
    induction a as [|a IH]; intros b xs mem; cbn [lcp_steps Nat.add obind]; [reflexivity|].
    destruct (lcp_next _ _ _ _) as [r| |]; cbn [obind]; [apply IH|reflexivity|reflexivity].
  Qed.

  (** *** The costs *)
  Lemma objective_until n ys : 0 <= n <= g_tend q -> feasible_schedule n [cap] ys ->
    exists c, po_objective ops (until q n) ys = Ok c /\ eeq (c_cost c) (prefix_cost phit beta false ys).
  Proof.
    intros Hn Hys.
    assert (HV' : well_formed_ssco valZ (until q n)).
    { destruct q_wf as (W1 & W2 & W3). split; [exact W1|]. split; [cbn [until g_tend]; lia|exact W3]. }
    assert (Hev' : evaluable (gssco_hit valZ vmerge outside (until q n)) (g_tend (until q n)) (g_bounds (until q n))).
    { intros t x Ht Hx. cbn [until g_tend g_bounds] in Ht, Hx. apply (Hev t x); [lia|exact Hx]. }
    rewrite <- HB in Hys.
    destruct (objective_cost vmerge outside (until q n) HV' Hev' merge s 1 ys Hys) as (c & Hc & Ec). exists c. split; [exact Hc|].
    eapply eeq_trans; [exact Ec|]. unfold schedule_cost, prefix_cost. cbn [search_view until s_switching s_d s_bounds g_switching g_d g_bounds]. unfold zero_config.
    rewrite HSW, q_d, HB. change (repeat 0 (Z.to_nat 1)) with [0]. apply total_cost_at. intros i x Hi. unfold restricted.
    destruct Hys as [HL Hys]. rewrite HB in Hys. rewrite inside_feasible.
    2: { rewrite Forall_forall in Hys. apply Hys. eapply nth_error_In, Hi. }
    assert (i < length ys)%nat by (apply nth_error_Some; congruence).
    cbn [padded s_hit search_view until g_cost]. match goal with |- context[?u <=? g_tend q] => destruct (u <=? g_tend q) eqn:E; [reflexivity|apply Z.leb_gt in E; lia] end.
  Qed.

  Lemma full_fin n : is_fin (prefix_cost phit beta false (repeat [cap] n)).
  Proof.
    unfold prefix_cost. assert (H : forall n t a, 1 <= t -> is_fin (total_cost phit (switching [beta] false) 1 t a (repeat [cap] n))).
    { clear n. induction n as [|n IH]; intros t a Ht; cbn [repeat total_cost]; [exact I|].
      apply is_fin_eadd. split; [|apply IH; lia]. apply is_fin_eadd. split; [|exact I]. apply (cc_fin _ _ _ padded_costs). exact Ht. }
    apply H. lia.
  Qed.

  Lemma lcp_session_competitive : exists xs mem, length xs = Z.to_nat (g_tend q) /\
    chooses ops (lcp_ssco vmerge outside) lcp_memory (mkOnline q 0) [] None xs mem /\
    forall n, (n <= length xs)%nat -> feasible_schedule (Z.of_nat n) [cap] (firstn n xs) /\
      exists c, po_objective ops (until q (Z.of_nat n)) (firstn n xs) = Ok c /\ is_fin (c_cost c) /\
      forall ys, feasible_schedule (Z.of_nat n) [cap] ys ->
        exists c', po_objective ops (until q (Z.of_nat n)) ys = Ok c' /\ ele (c_cost c) (escale 3 (c_cost c')).
  Proof.
    assert (HT : 0 <= g_tend q) by (destruct q_wf as (_ & W & _); lia). pose proof cap_pos as Hcp.
    set (T := Z.to_nat (g_tend q)).
    assert (HF : forall n, feasible_schedule (Z.of_nat n) [cap] (repeat [0] n)).
    { intros n. split; [rewrite repeat_length; reflexivity|]. apply Forall_forall. intros x Hx. apply repeat_spec in Hx. subst x. constructor; [lia|constructor]. }
    destruct (lcp_competitive outside padded cap beta eq_refl eq_refl eq_refl padded_costs T _ (HF T)) as (xs & mem & Hrun & Hfx & _).
    exists xs, mem. pose proof Hfx as [HL _]. split; [unfold T in HL; lia|]. split.
    - destruct (steps_chosen T [] None xs mem) as (ys & E & _ & HC); [cbn [length]; unfold T; lia|exact Hrun|]. cbn [app] in E. subst ys. exact HC.
    - intros n Hn.
      assert (HP : forall ys, feasible_schedule (Z.of_nat n) [cap] ys ->
        feasible_schedule (Z.of_nat n) [cap] (firstn n xs) /\ ele (prefix_cost phit beta false (firstn n xs)) (escale 3 (prefix_cost phit beta false ys))).
      { intros ys Hys. destruct (lcp_competitive outside padded cap beta eq_refl eq_refl eq_refl padded_costs n ys Hys) as (xs1 & mem1 & Hrun1 & Hfx1 & Hle).
        pose proof Hfx1 as [HL1 _].
        unfold integral_lcp in *. replace T with (n + (T - n))%nat in Hrun by lia. rewrite steps_split, Hrun1 in Hrun. cbn [obind fst snd] in Hrun.
        destruct (steps_chosen (T - n) xs1 mem1 xs mem) as (zs & E & _); [unfold T in *; lia|exact Hrun|].
        assert (E1 : firstn n xs = xs1) by (rewrite E, firstn_app, firstn_all2 by lia; replace (n - length xs1)%nat with 0%nat by lia; cbn [firstn]; apply app_nil_r).
        rewrite E1. auto. }
      destruct (HP _ (HF n)) as [HF1 _]. split; [exact HF1|].
      assert (Hr : 0 <= Z.of_nat n <= g_tend q) by (unfold T in *; lia).
      destruct (objective_until (Z.of_nat n) (firstn n xs) Hr HF1) as (c & Hc & Ec). exists c. split; [exact Hc|]. split.
      { assert (HF2 : feasible_schedule (Z.of_nat n) [cap] (repeat [cap] n)).
        { split; [rewrite repeat_length; reflexivity|]. apply Forall_forall. intros x Hx. apply repeat_spec in Hx. subst x. constructor; [lia|constructor]. }
        destruct (HP _ HF2) as [_ HLe]. pose proof (full_fin n) as HFF. eapply is_fin_eeq; [apply eeq_sym; exact Ec|].
        destruct (prefix_cost phit beta false (repeat [cap] n)); [|contradiction]. destruct (prefix_cost phit beta false (firstn n xs)); [exact I|contradiction]. }
      intros ys Hys. destruct (objective_until (Z.of_nat n) ys Hr Hys) as (c' & Hc' & Ec'). exists c'. split; [exact Hc'|].
      destruct (HP ys Hys) as [_ Hle]. rewrite Ec. eapply ele_trans; [exact Hle|]. apply eeq_ele. apply eeq_sym.
      destruct (c_cost c'), (prefix_cost phit beta false ys); cbn [eeq escale] in *; auto; try contradiction. lra.
  Qed.
End Compete.
