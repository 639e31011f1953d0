(** Solving one-dimensional offline problems. *)
From Coq Require Import Lia Lqa.
From Verif Require Import NumLemmas VerifySpec VerifyProofs GraphSearchSpec GraphSearchProofs ObjectiveProofs CostSpec CostProofs StaticProofs
  ApproxRatioProofs Search1DTop LoadProofs ObjectiveProofs CapacityWork CapacitySpec CapacityBrcp OfflineSpec OfflineProofs OfflineEnd Offline1DModel OneTypeSpec.
From Verif Require Import ProblemModel CostModel.
Local Open Scope Z_scope.

Section Search1D.
  Context {C D : Type}.
  Variable merge : C -> C -> C.
  Variable vmerge : C -> C -> outcome C.
  Variable outside : D.
  Variable s : split.
  Variable p : gssco Z C D.
  Variable m : Z.
  Notation hit := (gssco_hit valZ vmerge outside p).

  Lemma search_1d_solved o : verify_ssco valZ p = Ok tt -> g_bounds p = [m] ->
    evaluable hit (g_tend p) (g_bounds p) -> capacity_suffices hit (g_tend p) (g_bounds p) ->
    (forall t, 1 <= t <= g_tend p -> convex_on m (fun j => cost_of (hit t [j]))) ->
    (forall t j, 1 <= t <= g_tend p -> 0 <= j <= m -> ele (Fin 0) (cost_of (hit t [j]))) ->
    (0 <= fo_alpha o)%Q -> fo_l o = None -> fo_inverted o = false ->
    exists xs c,
      offline_solve (ssco_ops valZ merge vmerge outside s) (search_1d_ssco vmerge outside o) p = Ok (xs, c) /\
      ssco_objective merge vmerge outside s p 1 xs = Ok c /\ is_fin (c_cost c) /\
      cheapest (ssco_objective merge vmerge outside s p (fo_alpha o)) (g_tend p) (g_bounds p) xs.
  Proof.
    intros HV HB Hev Hcap Hconv Hnn Ha Hl Hi. apply ssco_verified in HV.
    pose proof (wf_bounds_pos p HV) as Hpos. rewrite HB in Hpos. inversion Hpos as [|? ? Hm _]; subst. clear Hpos.
    pose proof HV as HW. destruct HW as (W1 & W2 & W3 & W4 & W5 & W6).
    assert (Hd : g_d p = 1) by (rewrite HB in W3; cbn in W3; lia).
    destruct (g_switching p) as [|beta [|? ?]] eqn:ES; cbn [length] in W4; try lia.
    assert (Hbeta : (0 <= beta)%Q) by (apply Forall_inv in W6; lra).
    assert (HF : forall j, 0 <= j <= m -> feasible_config (g_bounds p) [j]) by (intros j Hj; rewrite HB; constructor; [lia|constructor]).
    assert (HH : forall t j, 1 <= t <= g_tend p -> 0 <= j <= m -> cost_of (hit t [j]) = c_cost (s_hit (search_view vmerge outside p) t [j])).
    { intros t j Ht Hj. rewrite (hit_view vmerge outside p Hev t [j] Ht (HF j Hj)). reflexivity. }
    destruct (search_1d_any outside (search_view vmerge outside p) 0 false (fo_alpha o) beta m) as (r & Hr & Hfin & Hfeas & Hcost & Hopt); cbn [search_view s_d s_bounds s_switching s_tend]; auto; try lia.
    { intros t Ht a b c qa qc Hab Hbc Ea Ec. destruct (Hconv t Ht a b c qa qc Hab Hbc) as (qb & Eb & Hle).
      - rewrite HH by lia. exact Ea.
      - rewrite HH by lia. exact Ec.
      - exists qb. split; [|exact Hle]. rewrite HH in Eb by lia. exact Eb. }
    { intros t Ht. destruct (Hcap t Ht) as (c & Hc & Hf). pose proof (HH t m Ht ltac:(lia)) as E. rewrite HB in Hc. rewrite Hc in E. cbn [cost_of] in E.
      change (is_fin (c_cost (s_hit (search_view vmerge outside p) t [m]))). rewrite <- E. exact Hf. }
    { intros t j Ht Hj. specialize (Hnn t j Ht Hj). rewrite HH in Hnn by lia. exact Hnn. }
    cbv zeta in *. set (xs := map (fun j => [j]) (pa_xs r)) in *. cbn [search_view s_tend] in Hfeas, Hopt.
    assert (ED : repeat 0 (Z.to_nat (g_d p)) = [0]) by (rewrite Hd; reflexivity).
    assert (HC : forall alpha ys, feasible_schedule (g_tend p) (g_bounds p) ys -> exists c, ssco_objective merge vmerge outside s p alpha ys = Ok c /\
       eeq (c_cost c) (total_cost (fun t x => c_cost (s_hit (search_view vmerge outside p) t x)) (switching [beta] false) alpha 1 [0] ys)).
    { intros alpha ys Hys. destruct (objective_cost vmerge outside p HV Hev merge s alpha ys Hys) as (c & Hc & Ec). exists c. split; [exact Hc|].
      unfold schedule_cost in Ec. cbn [search_view s_switching s_d s_bounds] in Ec. unfold zero_config in Ec. rewrite ES, ED in Ec.
      eapply eeq_trans; [exact Ec|]. apply total_cost_at. intros i x Hi'. unfold restricted. rewrite inside_feasible; [reflexivity|].
      destruct Hys as [_ Hys]. rewrite Forall_forall in Hys. apply Hys. eapply nth_error_In, Hi'. }
    rewrite <- HB in Hfeas.
    assert (Hch : cheapest (ssco_objective merge vmerge outside s p (fo_alpha o)) (g_tend p) (g_bounds p) xs).
    { split; [exact Hfeas|]. destruct (HC (fo_alpha o) xs Hfeas) as (c & Hc & Ec). exists c. split; [exact Hc|]. split.
      - eapply is_fin_eeq; [|exact Hfin]. eapply eeq_trans; [exact Hcost|apply eeq_sym; exact Ec].
      - intros ys Hys _. destruct (HC (fo_alpha o) ys Hys) as (c' & Hc' & Ec'). exists c'. split; [exact Hc'|].
        rewrite HB in Hys. specialize (Hopt ys Hys). rewrite Ec, Ec', <- Hcost. exact Hopt. }
    assert (Halg : search_1d_ssco vmerge outside o p = Ok xs).
    { unfold search_1d_ssco. rewrite Hi, Hl, Hr. cbn [obind].
      destruct (omap_exists (fun t => omap (hit t) (configs_of (map (zrange 0) (g_bounds p)))) (zrange 1 (g_tend p))) as [u Hu].
      { intros t Ht. apply zrange_In in Ht. apply omap_exists. intros x Hin. apply Hev; [lia|]. apply zrange_configs. exact Hin. }
      rewrite Hu. reflexivity. }
    destruct (solve_with merge vmerge outside s p HV Hev (search_1d_ssco vmerge outside o) (fo_alpha o) _ _ xs Halg (cheapest_within_1 _ _ _ _ _ Hch)) as (c & H1 & H2 & H3).
    exists xs, c. auto.
  Qed.
End Search1D.

Section Brcp1D.
  Context {C D : Type}.
  Variable merge : C -> C -> C.
  Variable vmerge : C -> C -> outcome C.
  Variable outside : D.
  Variables s sched : split.
  Variable minimizer : (list Q -> outcome ext) -> list (Q * Q) -> outcome (list Q).
  Variable p : gssco Q C D.
  Variables (m beta : Q) (f : Z -> Q -> ext).

  Notation brcp_objective := (objective_1dQ merge vmerge outside s p).

  Lemma feasible_servers t_end u xs : feasible_1dQ t_end u xs <-> exists ys, xs = map (fun y => [y]) ys /\ servers_ok u t_end ys.
  Proof.
    unfold feasible_1dQ, servers_ok. split.
    - intros [HL HF]. revert t_end HL. induction HF as [|x xs (y & -> & Hy) _ IH]; intros t_end HL.
      + exists []. split; [reflexivity|]. split; [exact HL|constructor].
      + destruct (IH (t_end - 1)) as (ys & -> & HL' & HF'); [cbn [length] in HL; lia|]. exists (y :: ys). split; [reflexivity|].
        split; [cbn [length]; lia|]. constructor; assumption.
    - intros (ys & -> & HL & HF). rewrite map_length. split; [exact HL|]. rewrite Forall_map. eapply Forall_impl; [|exact HF].
      intros y Hy. exists y. auto.
  Qed.

  Hypothesis HV : verify_ssco valQ p = Ok tt.
  Hypothesis Hb : g_bounds p = [m].
  Hypothesis Hs : g_switching p = [beta].
  Hypothesis CQ : capacity_costsQ m f beta.
  Hypothesis Hcosts : forall t x, 1 <= t <= g_tend p -> (0 <= x <= m)%Q ->
    (exists c, call_mean vmerge (g_cost p) t [x] = Ok c /\ eeq (c_cost c) (f t x)) /\
    (forall rs, call_predictive (g_cost p) t [x] = Ok rs -> length rs = 1%nat).

  Lemma objective_servers alpha ys : servers_ok m (g_tend p) ys ->
    exists c, brcp_objective alpha (map (fun y => [y]) ys) = Ok c /\ eeq (c_cost c) (servers_cost f beta alpha false ys).
  Proof.
    intros [HL HF]. unfold objective_1dQ.
    destruct (objective_along merge (gssco_problem valQ vmerge outside p)
      (fun t (x : list Q) => f t (hd 0%Q x)) (fun a b => sw1 beta false (hd 0%Q a) (hd 0%Q b)) [0%Q] alpha false s
      (map (fun x => [x]) ys)) as (c & E & Ec).
    - rewrite map_length. exact HL.
    - intros t y Hty Hy. apply in_map_iff in Hy. destruct Hy as (x & <- & Hin). cbn [gssco_problem op_hit hd op_tend] in *.
      rewrite Forall_forall in HF. specialize (HF x Hin). rewrite gssco_hit_inside; [apply Hcosts; auto|reflexivity|].
      rewrite Hb. constructor; [exact HF|constructor].
    - intros a b Hab Hy. apply in_map_iff in Hy. destruct Hy as (x & <- & Hin).
      assert (Ea : exists z, a = [z]).
      { destruct Hab as [->|Hab]; [eauto|]. apply in_map_iff in Hab. destruct Hab as (z & <- & _). eauto. }
      destruct Ea as (z & ->). cbn [gssco_problem op_move]. unfold gssco_move. rewrite Hs.
      rewrite scaled_movement_o_total by reflexivity. eexists. split; [reflexivity|]. cbn [hd].
      unfold scaled_movement, sw1. simpl. unfold scalar_movement. ring.
    - exists c. split; [exact E|]. rewrite Ec. rewrite (total_cost_hd beta alpha f). symmetry. apply servers_J.
  Qed.

  Lemma servers_finite alpha beta' ys : is_fin (servers_cost f beta alpha false ys) -> is_fin (servers_cost f beta beta' false ys).
  Proof. unfold servers_cost. apply total_cost_alpha. Qed.

  Lemma full_finite alpha : 0 <= g_tend p -> exists ys, servers_ok m (g_tend p) ys /\ is_fin (servers_cost f beta alpha false ys).
  Proof.
    intros HT. exists (repeat m (Z.to_nat (g_tend p))). split.
    - split; [rewrite repeat_length; lia|]. apply Forall_forall. intros y Hy. apply repeat_spec in Hy. subst y. pose proof (cq_m _ _ _ CQ). lra.
    - eapply is_fin_eeq; [apply eeq_sym, servers_J|]. apply (J_full m beta alpha f CQ).
  Qed.

  Lemma brcp_solved o : (0 <= fo_alpha o)%Q -> fo_l o = None -> fo_inverted o = false ->
    (forall inv n, (1 <= n)%nat -> Z.of_nat n <= g_tend p ->
       exact_answer minimizer
         (bound_objective vmerge merge outside sched (gssco_extend (ssco_reset p 0) 0) (fo_alpha o) inv 0 (Z.of_nat n) 0)
         (repeat (0%Q, m) n)) ->
    exists xs c,
      offline_solve (ssco_ops valQ merge vmerge outside s) (brcp_ssco vmerge outside merge sched minimizer o) p = Ok (xs, c) /\
      brcp_objective 1 xs = Ok c /\ is_fin (c_cost c) /\
      cheapest_1dQ (brcp_objective (fo_alpha o)) (g_tend p) m xs.
  Proof.
    intros Ha Hl Hi Hex. pose proof HV as HV'. apply ssco_verified in HV'. destruct HV' as (W1 & W2 & W3 & W4 & _ & _).
    assert (Hd : g_d p = 1) by (rewrite Hb in W3; cbn in W3; lia).
    destruct (brcp_is_optimal vmerge merge outside sched minimizer p m beta (fo_alpha o) f Hd Hb Hs W2 Ha CQ Hcosts Hex) as (ys & bs & Hr & Hok & Hopt).
    assert (Hfin : forall a, is_fin (servers_cost f beta a false ys)).
    { intros a. apply (servers_finite (fo_alpha o)). destruct (full_finite (fo_alpha o) W2) as (zs & Hz & Fz). eapply ele_fin; [exact (Hopt zs Hz)|exact Fz]. }
    destruct (objective_servers 1 ys Hok) as (c & Hc & Ec). exists (map (fun y => [y]) ys), c.
    split; [|split; [exact Hc|split; [eapply is_fin_eeq; [apply eeq_sym; exact Ec|apply Hfin]|]]].
    - unfold offline_solve. cbn [ssco_ops po_verify po_objective]. rewrite HV. cbn [obind]. unfold brcp_ssco. rewrite Hi, Hl, Hr. cbn [obind fst].
      unfold objective_1dQ in Hc. unfold gzero. rewrite Hd. cbn [Z.to_nat Pos.to_nat Pos.iter_op repeat valQ v_zero]. change (Pos.to_nat 1) with 1%nat. cbn [repeat].
      rewrite Hc. reflexivity.
    - split; [apply feasible_servers; exists ys; auto|].
      destruct (objective_servers (fo_alpha o) ys Hok) as (c1 & Hc1 & Ec1). exists c1. split; [exact Hc1|].
      split; [eapply is_fin_eeq; [apply eeq_sym; exact Ec1|apply Hfin]|].
      intros zs' Hz. apply feasible_servers in Hz as (zs & -> & Hz). destruct (objective_servers (fo_alpha o) zs Hz) as (c2 & Hc2 & Ec2).
      exists c2. split; [exact Hc2|]. rewrite Ec1, Ec2. apply Hopt. exact Hz.
  Qed.
End Brcp1D.
