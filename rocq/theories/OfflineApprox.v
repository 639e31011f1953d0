(** Proofs about solving offline problems approximately. *)
From Coq Require Import Lia Lqa Qround Qpower.
From Verif Require Import NumLemmas GraphSearchSpec GraphSearchProofs ApproxSearchProofs ApproxRatioProofs ObjectiveProofs
  CostSpec CostProofs ConvertProofs ConvertObjective VerifySpec VerifyProofs LoadProofs LoadObjective BudgetSpec
  OfflineModel OfflineSpec OfflineProofs OfflineLoads.
From Verif Require Import ProblemModel CostModel.
Local Open Scope Z_scope.

Lemma escale_eeq r a b : eeq a b -> eeq (escale r a) (escale r b).
Proof. destruct a, b; simpl; intros H; try tauto. rewrite H. reflexivity. Qed.

Lemma power_nonneg gamma i : (1 < gamma)%Q -> (0 <= Qpower gamma i)%Q.
Proof. intros H. apply Qpower_pos. lra. Qed.

Lemma values_nonneg bounds gamma mx values : (1 < gamma)%Q -> Forall (fun u => 0 <= u) bounds ->
  (forall v, In v values <-> v = 0 \/ In v bounds \/
       exists i, 1 <= i /\ (v = Qfloor (Qpower gamma i) \/ v = Qceiling (Qpower gamma i)) /\ v <= mx) ->
  Forall (fun v => 0 <= v) values.
Proof.
  intros Hg Hb HIn. apply Forall_forall. intros v Hv. apply HIn in Hv as [->|[Hv|(i & _ & Hv & _)]]; [lia| |].
  - rewrite Forall_forall in Hb. apply Hb. exact Hv.
  - pose proof (power_nonneg gamma i Hg) as HP.
    destruct Hv as [->| ->].
    + change 0 with (Qfloor 0). apply Qfloor_resp_le. exact HP.
    + change 0 with (Qceiling 0). apply Qceiling_resp_le. exact HP.
Qed.

Section SSCO.
  Context {C D : Type}.
  Variable vmerge : C -> C -> outcome C.
  Variable outside : D.
  Variable p : gssco Z C D.
  Notation hit := (gssco_hit valZ vmerge outside p).
  Notation view := (search_view vmerge outside p).
  Hypothesis Hwf : well_formed_ssco valZ p.
  Hypothesis Hev : evaluable hit (g_tend p) (g_bounds p).

  Lemma approx_search_correct gamma o : 1 <= g_tend p -> capacity_suffices hit (g_tend p) (g_bounds p) ->
    (1 < gamma)%Q -> (0 <= fo_alpha o)%Q -> fo_l o = None ->
    scales_at_most (2 * gamma - 1) hit (g_tend p) (g_bounds p) ->
    exists N, forall sched fuel, (N <= fuel)%nat ->
    exists xs, approx_search_ssco vmerge outside sched fuel gamma o p = Ok xs /\
      forall merge s, cheapest_within (2 * gamma - 1) (ssco_objective merge vmerge outside s p (fo_alpha o))
                        (g_tend p) (g_bounds p) xs.
  Proof.
    intros HT Hcap Hg Ha Hl Hsc. pose proof (view_searchable vmerge outside p Hwf Hev HT Hcap) as HS.
    assert (HG : grows_at_most (2 * gamma - 1) view).
    { intros t x y Ht Hx Hy Hr. apply (Hsc t x y _ _ Ht Hx Hy Hr); apply hit_view; auto. }
    destruct (approx_ratio_correct outside view gamma (fo_inverted o) (fo_alpha o) HS Hg Ha HG) as (N1 & HN1).
    assert (HS' := HS). destruct HS' as (Hne & _ & _ & _ & _ & Hb0 & _).
    destruct (max_of_ex (s_bounds view) Hne) as (m & Hm).
    destruct (build_values_spec (s_bounds view) gamma m Hg Hm Hb0) as (N2 & values & HN2 & Hinc & H0 & HIn & Hcov).
    exists (Nat.max N1 N2). intros sched fuel Hf.
    destruct (HN1 sched fuel ltac:(lia)) as (path & cache & Hrun & Hfe & Hfin & Hcost & Hopt).
    exists (gp_xs path). split.
    - unfold approx_search_ssco. change (g_bounds p) with (s_bounds view).
      rewrite HN2 by lia. rewrite Hl, Hrun. eapply searched_ok; [exact Hev|reflexivity|].
      apply values_configs. eapply values_nonneg; eauto.
    - intros merge s. split; [exact Hfe|].
      destruct (objective_cost vmerge outside p Hwf Hev merge s (fo_alpha o) _ Hfe) as (c & Hc & Ec). exists c. split; [exact Hc|].
      split; [apply (is_fin_eeq _ _ (eeq_trans _ _ _ Hcost (eeq_sym _ _ Ec))); exact Hfin|]. intros ys Hys _.
      destruct (objective_cost vmerge outside p Hwf Hev merge s (fo_alpha o) _ Hys) as (c' & Hc' & Ec'). exists c'. split; [exact Hc'|].
      rewrite Ec, (escale_eeq _ _ _ Ec'), <- Hcost. apply Hopt. exact Hys.
  Qed.
End SSCO.

(** *** Best assignments scale *)
Lemma selected_nonneg zs d L k : (0 < d)%nat -> distribution d zs -> (0 <= L)%Q -> (k < d)%nat ->
  exists q, select_loads (mkFractions zs d 1) [L] k = Ok [q] /\ (0 <= q)%Q.
Proof.
  intros Hd Hz HL Hk. assert (Hz' := Hz). destruct Hz' as (Hlen & _ & _).
  destruct (select_ok zs d 1 [L]) with (k := k) as (ls & H1 & H2 & H3); auto; [lia|].
  destruct ls as [|q [|? ?]]; simpl in H2; try lia. exists q. split; [exact H1|].
  destruct (H3 0%nat L) as (g & Hg & Hq); [lia|reflexivity|].
  pose proof (fraction_nonneg zs d L k g Hd Hz HL Hk Hg) as Hg0. simpl in Hq.
  assert (q = L * g)%Q as -> by congruence. apply Qmult_le_0_compat; assumption.
Qed.

Lemma esum_scaled r : forall vs ws, Forall2 (fun v w => ele w (escale r v)) vs ws ->
  ele (esum ws) (escale r (esum vs)).
Proof.
  induction 1 as [|v w vs ws H _ IH]; cbn [esum fold_right]; [simpl; lra|].
  change (fold_right eadd (Fin 0) vs) with (esum vs). change (fold_right eadd (Fin 0) ws) with (esum ws).
  destruct w as [w|], v as [v|], (esum ws), (esum vs); simpl in *; try tauto; try lra.
Qed.

Section Scaling.
  Variable p : gsblo Z.
  Variable t : Z.
  Hypothesis Ht : 1 <= t <= b_tend p.
  Hypothesis Hcosts : regular_costs p.
  Hypothesis Hd : 0 < b_d p.

  Let term (x : list Z) (L : Q) (z : fractions) (k : nat) :=
    do loads <- select_loads z [L] k;
    do total_load <- from_option (nth_error loads 0);
    do xk <- from_option (nth_error x k);
    rbind (safe_balancing (v_toQ valZ xk) total_load
             (do f <- from_option (nth_error (b_cost p) k);
              do c <- call_mean unit_vmerge f t (total_load / v_toQ valZ xk)%Q;
              Ok (ROk (escale (v_toQ valZ xk) (c_cost c)))))
          (fun e => Ok (ROk (e, Fin 0))).

  Lemma term_scales r x y L zs k : (1 <= r)%Q -> (0 <= L)%Q -> distribution (Z.to_nat (b_d p)) zs ->
    Z.of_nat (length x) = b_d p -> Z.of_nat (length y) = b_d p -> Forall (fun j => 0 <= j) x ->
    raised r x y -> (k < Z.to_nat (b_d p))%nat ->
    exists a b, objective_value (term x L (mkFractions zs (Z.to_nat (b_d p)) 1) k) = Some a /\
      objective_value (term y L (mkFractions zs (Z.to_nat (b_d p)) 1) k) = Some b /\ ele b (escale r a).
  Proof.
    intros Hr HL Hz Hx Hy Hx0 HR Hk. unfold term.
    destruct (selected_nonneg zs (Z.to_nat (b_d p)) L k ltac:(lia) Hz HL Hk) as (q & -> & Hq).
    cbn [obind nth_error from_option].
    destruct (nth_error x k) as [i|] eqn:Ei; [|apply nth_error_None in Ei; lia].
    destruct (nth_error y k) as [j|] eqn:Ej; [|apply nth_error_None in Ej; lia].
    assert (Hij : i <= j /\ (inject_Z j <= r * inject_Z i)%Q).
    { clear -HR Ei Ej. unfold raised in HR. revert k Ei Ej. induction HR as [|a b x y H HR IH]; intros [|k] Ei Ej; simpl in *; try discriminate.
      - assert (a = i) by congruence. assert (b = j) by congruence. subst. exact H.
      - eapply IH; eauto. }
    assert (Hi : 0 <= i) by (rewrite Forall_forall in Hx0; eapply Hx0, nth_error_In, Ei).
    cbn [from_option obind valZ v_toQ]. unfold safe_balancing.
    destruct Hij as [Hij Hji]. destruct Hcosts as [Hlen Hreg].
    destruct (Qltb 0 (inject_Z i)) eqn:E0.
    - apply Qltb_iff in E0.
      assert (Hjq : (inject_Z i <= inject_Z j)%Q) by (rewrite <- Zle_Qle; exact Hij).
      assert (E1 : Qltb 0 (inject_Z j) = true) by (apply Qltb_iff; lra). rewrite E1.
      destruct (nth_error (b_cost p) k) as [f|] eqn:Ef; [|apply nth_error_None in Ef; lia].
      cbn [from_option obind]. destruct (Hreg f t (nth_error_In _ _ Ef) Ht) as [Hok Hmon].
      assert (Qi : (0 <= q / inject_Z i)%Q) by (apply Qle_shift_div_l; lra).
      assert (Qj : (0 <= q / inject_Z j)%Q) by (apply Qle_shift_div_l; lra).
      destruct (Hok _ Qi) as (ci & Hci & Pi). destruct (Hok _ Qj) as (cj & Hcj & Pj).
      rewrite Hci, Hcj. unfold rbind. cbn [obind]. do 2 eexists. split; [reflexivity|]. split; [reflexivity|].
      assert (Hle : ele (c_cost cj) (c_cost ci)).
      { eapply Hmon; [exact Qj| |exact Hcj|exact Hci]. apply Qle_shift_div_l; [exact E0|].
        setoid_replace (q / inject_Z j * inject_Z i)%Q with (q * (inject_Z i / inject_Z j))%Q by (field; lra).
        rewrite <- (Qmult_1_r q) at 2. rewrite (Qmult_comm q), (Qmult_comm q). apply Qmult_le_compat_r; [|exact Hq].
        apply Qle_shift_div_r; lra. }
      unfold obj_total. cbn [fst snd].
      destruct (c_cost ci) as [a|], (c_cost cj) as [b|]; simpl in *; try tauto.
      clear - Hji E0 Hjq Hle Pj Pi. nra.
    - apply Qltb_false in E0. change 0%Q with (inject_Z 0) in E0. rewrite <- Zle_Qle in E0.
      assert (i = 0) by lia. subst i.
      assert (j = 0). { change (inject_Z 0) with 0%Q in Hji. rewrite Qmult_0_r in Hji. change 0%Q with (inject_Z 0) in Hji.
        rewrite <- Zle_Qle in Hji. lia. }
      subst j. replace (Qltb 0 (inject_Z 0)) with false by reflexivity.
      destruct (Qltb 0 q) eqn:Eq.
      + cbn [rbind obind objective_value]. exists Inf, Inf. repeat split.
      + apply Qltb_false in Eq. replace (Qeq_bool q 0) with true by (symmetry; apply Qeq_bool_iff; lra).
        unfold rbind. cbn [obind objective_value]. do 2 eexists. split; [reflexivity|]. split; [reflexivity|]. simpl. lra.
  Qed.

  Lemma objective_scales r x y L zs : (1 <= r)%Q -> (0 <= L)%Q -> distribution (Z.to_nat (b_d p)) zs ->
    Z.of_nat (length x) = b_d p -> Z.of_nat (length y) = b_d p -> Forall (fun j => 0 <= j) x -> raised r x y ->
    exists a b, objective_value (sblo_objective valZ p t x [L] (mkFractions zs (Z.to_nat (b_d p)) 1)) = Some a /\
      objective_value (sblo_objective valZ p t y [L] (mkFractions zs (Z.to_nat (b_d p)) 1)) = Some b /\ ele b (escale r a).
  Proof.
    intros Hr HL Hz Hx Hy Hx0 HR. unfold sblo_objective. rewrite Hx, Hy, Z.eqb_refl. cbn [negb].
    change (exists a b, objective_value (sum_first obj_add (Fin 0, Fin 0)
              (map (term x L (mkFractions zs (Z.to_nat (b_d p)) 1)) (seq 0 (Z.to_nat (b_d p))))) = Some a /\
            objective_value (sum_first obj_add (Fin 0, Fin 0)
              (map (term y L (mkFractions zs (Z.to_nat (b_d p)) 1)) (seq 0 (Z.to_nat (b_d p))))) = Some b /\ ele b (escale r a)).
    assert (G : forall ks, (forall k, In k ks -> (k < Z.to_nat (b_d p))%nat) -> exists va vb,
      Forall2 (fun m e => exists o, objective_value m = Some o /\ eeq o e)
        (map (term x L (mkFractions zs (Z.to_nat (b_d p)) 1)) ks) va /\
      Forall2 (fun m e => exists o, objective_value m = Some o /\ eeq o e)
        (map (term y L (mkFractions zs (Z.to_nat (b_d p)) 1)) ks) vb /\
      Forall2 (fun v w => ele w (escale r v)) va vb).
    { induction ks as [|k ks IH]; intros Hks; [exists [], []; repeat split; constructor|].
      destruct IH as (va & vb & H1 & H2 & H3); [intros; apply Hks; right; assumption|].
      destruct (term_scales r x y L zs k Hr HL Hz Hx Hy Hx0 HR (Hks k (or_introl eq_refl))) as (a & b & Ha & Hb & Hab).
      exists (a :: va), (b :: vb). cbn [map]. repeat split; constructor; auto.
      - exists a. split; [exact Ha|apply eeq_refl].
      - exists b. split; [exact Hb|apply eeq_refl]. }
    destruct (G (seq 0 (Z.to_nat (b_d p)))) as (va & vb & H1 & H2 & H3); [intros k Hk; apply in_seq in Hk; lia|].
    destruct (sum_first_value _ _ H1) as (a & Ha & Ea). destruct (sum_first_value _ _ H2) as (b & Hb & Eb).
    exists a, b. split; [exact Ha|]. split; [exact Hb|]. rewrite (escale_eeq _ _ _ Ea), Eb. apply esum_scaled. exact H3.
  Qed.
End Scaling.

Lemma sblo_scales minimize (p : gsblo Z) r : well_formed_sblo valZ p -> regular_costs p -> assigns_best minimize p ->
  (1 <= r)%Q -> scales_at_most r (sblo_hit valZ minimize p) (b_tend p) (b_bounds p).
Proof.
  intros ((Hd & _ & Hlen & _) & HL1 & HL2) Hreg Hbest Hr t x y c c' Ht Hx Hy HR Hc Hc'.
  assert (Hlx : Z.of_nat (length x) = b_d p) by (rewrite (feasible_length _ _ Hx); exact Hlen).
  assert (Hly : Z.of_nat (length y) = b_d p) by (rewrite (feasible_length _ _ Hy); exact Hlen).
  destruct (access (b_load p) t) as [l|] eqn:El.
  2:{ unfold access in El. destruct ((1 <=? t) && (t <=? Z.of_nat (length (b_load p))))%bool eqn:E.
      - apply nth_error_None in El. lia.
      - lia. }
  pose proof (HL2 t l Ht El) as Hl0. unfold is_nonnegative in Hl0. cbn [valZ v_toQ] in Hl0.
  destruct (Hbest t x l c Ht Hx El Hc) as [(zs & o & Ha & Ho & Eo) _].
  destruct (Hbest t y l c' Ht Hy El Hc') as [_ Hmin].
  assert (E : Z.to_nat (b_d p) = length x) by lia. assert (E' : Z.to_nat (b_d p) = length y) by lia.
  destruct (objective_scales p t Ht Hreg Hd r x y (inject_Z l) (map apply_precision zs) Hr Hl0) as (a & b & Va & Vb & Hab); auto.
  - rewrite E. exact Ha.
  - clear -Hx. induction Hx; constructor; auto. lia.
  - unfold new_fractions in *. rewrite E in Va. rewrite Va in Ho. assert (a = o) by congruence. subst a.
    rewrite <- (escale_eeq _ _ _ Eo). eapply ele_trans; [|exact Hab]. apply (Hmin zs b).
    + rewrite <- E', E. exact Ha.
    + rewrite <- E'. exact Vb.
Qed.
