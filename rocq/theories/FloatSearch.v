(** The whole graph search in floating-point arithmetic: near-optimality, independence of the division
    of work, resuming from a cache, and the exact model as a special case. *)
From Verif Require Import NumLemmas GraphSearchModel GraphSearchSpec GraphSearchOrder GraphSearchPick
  GraphSearchWalk GraphSearchCosts GraphSearchDP GraphSearchProofs ObjectiveProofs
  FloatModel FloatSpec FloatPick FloatWalk FloatProofs FloatDP.
From Coq Require Import Arith Lqa.
Local Open Scope nat_scope.

Section Slots.
  Variable rnd : Q -> Q.
  Variable F : Q -> Prop.
  Variables u small : Q.
  Hypothesis R : rounds rnd F u small.
  Variable hit : Z -> list Z -> ext.
  Variable d : Z.
  Variable bounds : list Z.
  Variable beta : list Q.
  Variable alpha : Q.
  Variable inverted : bool.
  Variable vs : gvalues.
  Variable sched : Z -> vertice -> ProblemModel.split.
  Let b := v_bound vs.
  Let dn := length b.
  Notation val := (val vs).
  Notation mkv := (mkv vs).
  Hypothesis d_dn : d = Z.of_nat dn.
  Hypothesis dn_pos : 0 < dn.
  Hypothesis b_in : forall k, nth k b 0 < length (v_values vs).
  Hypothesis b_pos : forall k, 1 <= k -> k < dn -> 1 <= nth k b 0.
  Hypothesis bounds_val : bounds = map val b.
  Hypothesis val_0 : val 0 = 0%Z.
  Hypothesis inc : increasing (v_values vs).
  Hypothesis beta_len : length beta = dn.
  Hypothesis beta_fine : Forall (fun q => F q /\ no_underflow small q /\ no_underflow small (alpha * q))%Q beta.
  Hypothesis alpha_nonneg : (0 <= alpha)%Q.
  Hypothesis hit_F : forall t x, match hit t x with Fin q => F q | Inf => True end.

  Let mono := val_mono_inc vs inc.
  Let strict := val_strict_inc vs inc.

  Notation FDn := (FDn F u hit beta alpha inverted vs).
  Notation FUp := (FUp F u hit beta alpha inverted vs).
  Notation FInvUp := (FInvUp F u hit beta alpha inverted vs).
  Notation FInvDn := (FInvDn F u hit beta alpha inverted vs).
  Notation hlayer := (f_handle_layer rnd hit d bounds beta alpha inverted vs sched).
  Notation hslots := (f_handle_slots rnd hit d bounds beta alpha inverted vs sched).

  Definition AllFDn (t : Z) (ps : gpaths) : Prop :=
    (1 <= t)%Z -> forall v, box b v -> stored ps (mkv v, false) (FDn t v).

  Lemma f_up_layer t ps : (1 <= t)%Z -> AllFDn (t - 1) ps ->
    exists ps', hlayer t true ps = Ok ps' /\ forall v, box b v -> stored ps' (mkv v, true) (FUp t v).
  Proof.
    intros Ht HA.
    destruct (f_layer_inv rnd hit d bounds beta alpha inverted vs sched d_dn b_in bounds_val val_0 t true (FInvUp t))
      with (ps := ps) as (ps' & H1 & H2); auto.
    - intros ps0 S S' Hi [Ha Hb]. split; auto.
    - intros k S a ps0 Hk Ha Hz HS HI. eapply f_up_step; eauto.
    - split; [|intros a []]. intros Ht1. apply HA. lia.
    - exists ps'. split; auto. intros v Hv. destruct H2 as [_ H2].
      apply (H2 v). apply stage_spec; [unfold b; lia|]. split; auto.
      intros l Hl. apply nth_overflow. apply box_length in Hv. unfold b in *. lia.
  Qed.

  Lemma f_dn_layer t ps : (1 <= t)%Z -> is_fin (hit t bounds) ->
    (forall v, box b v -> stored ps (mkv v, true) (FUp t v)) ->
    exists ps', hlayer t false ps = Ok ps' /\ AllFDn t ps'.
  Proof.
    intros Ht Hf HA.
    destruct (f_layer_inv rnd hit d bounds beta alpha inverted vs sched d_dn b_in bounds_val val_0 t false (FInvDn t))
      with (ps := ps) as (ps' & H1 & H2); auto.
    - intros ps0 S S' Hi [Ha Hb]. split; auto.
    - intros k S a ps0 Hk Ha Hz HS HI. eapply f_dn_step; eauto.
    - split; [exact HA|intros a []].
    - exists ps'. split; auto. intros _ v Hv. destruct H2 as [_ H2].
      specialize (H2 (vsub b v)).
      assert (E : emb vs false (vsub b v) = v) by (unfold emb; fold b; apply vsub_invol; auto).
      unfold cfgof in H2. rewrite E in H2. apply H2.
      apply stage_spec; [unfold b; lia|]. split; [apply vsub_box; auto|].
      intros l Hl. apply nth_overflow. rewrite vsub_length by (apply box_length; auto). unfold b; lia.
  Qed.

  Lemma f_slots_ok : forall n T0 ps, (0 <= T0)%Z ->
    (forall t, T0 < t <= T0 + Z.of_nat n -> is_fin (hit t bounds))%Z -> AllFDn T0 ps ->
    exists ps', hslots (zrange (T0 + 1) (T0 + Z.of_nat n)) ps = Ok ps' /\ AllFDn (T0 + Z.of_nat n) ps'.
  Proof.
    induction n as [|n IH]; intros T0 ps H0 Hf HA.
    - rewrite zrange_nil by lia. exists ps. split; auto. rewrite Z.add_0_r. exact HA.
    - rewrite zrange_cons by lia. cbn [f_handle_slots].
      destruct (f_up_layer (T0 + 1) ps) as (ps1 & -> & H1); [lia|rewrite Z.add_simpl_r; auto|]. cbn [obind].
      destruct (f_dn_layer (T0 + 1) ps1) as (ps2 & -> & H2); [lia|apply Hf; lia|auto|]. cbn [obind].
      destruct (IH (T0 + 1)%Z ps2) as (ps3 & H3 & H4); [lia|intros; apply Hf; lia|auto|].
      exists ps3. replace (T0 + Z.of_nat (S n))%Z with (T0 + 1 + Z.of_nat n)%Z by lia. split; auto.
  Qed.

  Lemma roundings_n T : (1 <= T)%Z ->
    Z.of_nat (n_dn inverted vs T (repeat 0 dn)) = search_roundings T (Z.of_nat (list_sum b)) inverted.
  Proof.
    intros HT. unfold n_dn, search_roundings, extra, Ssum. fold b.
    assert (E0 : list_sum (repeat 0 dn) = 0).
    { clear. unfold list_sum. generalize dn. intros n. induction n as [|n IH]; cbn; auto. }
    rewrite E0. assert (ET : T = Z.of_nat (S (Z.to_nat (T - 1)))) by lia.
    revert ET. generalize (Z.to_nat (T - 1)) (list_sum b). intros m s ->.
    destruct inverted; nia.
  Qed.

  Lemma AllFDn_result T ps : (1 <= T)%Z -> AllFDn T ps ->
    exists p, glookup ps (build_base_config d bounds vs true, false) = Some p /\
      allowed_schedule T (v_values vs) bounds (gp_xs p) /\
      up_to_rounding u (search_roundings T (Z.of_nat (list_sum b)) inverted)
        (total_cost hit (power_up beta) alpha 1 (repeat 0%Z dn) (gp_xs p)) (gp_cost p) /\
      is_fin (gp_cost p) /\
      forall ys, allowed_schedule T (v_values vs) bounds ys ->
        at_most_rounding u (search_roundings T (Z.of_nat (list_sum b)) inverted) (gp_cost p)
          (total_cost hit (power_up beta) alpha 1 (repeat 0%Z dn) ys).
  Proof.
    intros HT HA.
    assert (Hz : box b (repeat 0 dn)) by (apply (stage_spec b 0); [lia|cbn; auto]).
    destruct (HA HT (repeat 0 dn) Hz) as (p & Hp & q & kx & Hq & _ & Hl & Hg & _ & Hkx & Hfe & Hopt).
    rewrite (base_config_eq d bounds vs d_dn bounds_val val_0 true).
    exists p. split; [exact Hp|].
    assert (Hpot : (pot beta alpha inverted vs (repeat 0%nat dn) == 0)%Q).
    { unfold pot. rewrite (map_val_zero vs val_0). destruct inverted; [|reflexivity]. rewrite weighted_zero. ring. }
    assert (Habove : forall ys, Forall (gridc vs) ys -> above vs (repeat 0 dn) ys).
    { intros ys Hy. apply (grid_last beta vs dn_pos val_0 beta_len) in Hy. destruct Hy as (w & Hw & E). exists w. repeat split; auto.
      apply Forall2_le_nth; [rewrite repeat_length; apply box_length in Hw; auto|].
      intros k. rewrite nth_repeat_0. lia. }
    assert (Hmin : forall ys ky, allowed_schedule T (v_values vs) bounds ys ->
        total_cost hit (power_up beta) alpha 1 (repeat 0%Z dn) ys = Fin ky ->
        (q <= Qpower (1 + u) (search_roundings T (Z.of_nat (list_sum b)) inverted) * ky)%Q).
    { intros ys ky [Hly Hgy] Hky. apply (grid_allowed bounds vs b_in bounds_val val_0 inc) in Hgy.
      specialize (Hopt ys ky Hgy Hly (Habove ys Hgy) Hky).
      rewrite pw_Qpower, roundings_n in Hopt by auto. fold b in Hopt.
      rewrite Hpot in Hopt. unfold Qminus in Hopt. rewrite Qplus_0_r in Hopt. exact Hopt. }
    assert (Ha : allowed_schedule T (v_values vs) bounds (gp_xs p)).
    { split; [auto|]. apply (grid_allowed bounds vs b_in bounds_val val_0 inc); auto. }
    split; [exact Ha|]. split; [|split].
    - fold b in Hkx. fold dn in Hkx. rewrite Hkx, Hq. cbn [up_to_rounding]. split; [|apply (Hmin _ _ Ha Hkx)].
      rewrite pw_Qpower, roundings_n in Hfe by auto.
      rewrite Hpot in Hfe. unfold Qminus in Hfe. rewrite Qplus_0_r in Hfe. exact Hfe.
    - rewrite Hq. exact I.
    - intros ys Hys. rewrite Hq.
      destruct (total_cost hit (power_up beta) alpha 1 (repeat 0%Z dn) ys) as [ky|] eqn:Eky; [|exact I].
      apply (Hmin ys ky); auto.
  Qed.

  Lemma f_slots_result T : (1 <= T)%Z -> (forall t, 1 <= t <= T -> is_fin (hit t bounds))%Z ->
    exists ps p, hslots (zrange 1 T) [] = Ok ps /\
      glookup ps (build_base_config d bounds vs true, false) = Some p /\
      allowed_schedule T (v_values vs) bounds (gp_xs p) /\
      up_to_rounding u (search_roundings T (Z.of_nat (list_sum b)) inverted)
        (total_cost hit (power_up beta) alpha 1 (repeat 0%Z dn) (gp_xs p)) (gp_cost p) /\
      is_fin (gp_cost p) /\
      forall ys, allowed_schedule T (v_values vs) bounds ys ->
        at_most_rounding u (search_roundings T (Z.of_nat (list_sum b)) inverted) (gp_cost p)
          (total_cost hit (power_up beta) alpha 1 (repeat 0%Z dn) ys).
  Proof.
    intros HT Hf. destruct (f_slots_ok (Z.to_nat T) 0 []) as (ps & H1 & H2); [lia|intros; apply Hf; lia| |].
    { intros X. lia. }
    rewrite Z.add_0_l, Z2Nat.id in * by lia.
    change (0 + 1)%Z with 1%Z in H1.
    destruct (AllFDn_result T ps HT H2) as (p & Hp). exists ps, p. tauto.
  Qed.
End Slots.

(** ** Independence of the division of work and of later hitting costs, for every rounding *)
Section Ext.
  Variable rnd : Q -> Q.
  Variables hit hit' : Z -> list Z -> ext.
  Variable d : Z.
  Variable bounds : list Z.
  Variable beta : list Q.
  Variable alpha : Q.
  Variable inverted : bool.
  Variable vs : gvalues.
  Variables sched sched' : Z -> vertice -> ProblemModel.split.

  Lemma f_find_optimal_sched s s' preds ps :
    f_find_optimal_predecessor rnd s preds ps = f_find_optimal_predecessor rnd s' preds ps.
  Proof.
    unfold f_find_optimal_predecessor. destruct preds as [|e preds].
    - cbn [omap obind]. rewrite !f_par_pick_pick. reflexivity.
    - match goal with |- context [if ?c then _ else _] => destruct c end; auto.
      match goal with |- context [obind ?m _] => destruct m end; cbn [obind]; auto. rewrite !f_par_pick_pick. reflexivity.
  Qed.

  Notation hc := (f_handle_config rnd hit d beta alpha inverted vs sched).
  Notation hc' := (f_handle_config rnd hit' d beta alpha inverted vs sched').

  Variable t : Z.
  Hypothesis agree : forall x, hit t x = hit' t x.

  Lemma f_handle_config_ext k up c ps : hc t k up c ps = hc' t k up c ps.
  Proof.
    unfold f_handle_config, f_find_immediate_predecessors. rewrite agree.
    destruct (f_neighbour_edges _ _ _ _ _ _ _ _); cbn [obind]; auto.
    match goal with |- context [obind ?m _] => destruct m end; cbn [obind]; auto.
    rewrite (f_find_optimal_sched _ (sched' t (c, up))). reflexivity.
  Qed.

  Lemma f_walk_ext fuel : forall k up c ps added,
    f_walk rnd hit d beta alpha inverted vs sched fuel t k up c ps added =
    f_walk rnd hit' d beta alpha inverted vs sched' fuel t k up c ps added.
  Proof.
    induction fuel as [|f IH]; intros k up c ps added; cbn [f_walk]; auto.
    rewrite f_handle_config_ext. destruct (hc' t k up c ps); cbn [obind]; auto.
    destruct (build_config _ _ _ _) as [[c'|]| |]; cbn [obind]; auto.
  Qed.

  Lemma f_handle_bases_ext k up bases : forall ps added,
    f_handle_bases rnd hit d beta alpha inverted vs sched t k up bases ps added =
    f_handle_bases rnd hit' d beta alpha inverted vs sched' t k up bases ps added.
  Proof.
    induction bases as [|c bases IH]; intros ps added; cbn [f_handle_bases]; auto.
    match goal with |- context [obind ?m _] => destruct m as [st| |] end; cbn [obind]; auto.
    rewrite f_walk_ext. destruct (f_walk _ _ _ _ _ _ _ _ _ _ _ _ _ _ _); cbn [obind]; auto.
  Qed.

  Lemma f_handle_dims_ext n : forall k up configs ps,
    f_handle_dims rnd hit d beta alpha inverted vs sched n t k up configs ps =
    f_handle_dims rnd hit' d beta alpha inverted vs sched' n t k up configs ps.
  Proof.
    induction n as [|n IH]; intros k up configs ps; cbn [f_handle_dims]; auto.
    rewrite f_handle_bases_ext. destruct (f_handle_bases _ _ _ _ _ _ _ _ _ _ _ _ _ _); cbn [obind]; auto.
  Qed.

  Lemma f_handle_layer_ext up ps :
    f_handle_layer rnd hit d bounds beta alpha inverted vs sched t up ps =
    f_handle_layer rnd hit' d bounds beta alpha inverted vs sched' t up ps.
  Proof. unfold f_handle_layer. apply f_handle_dims_ext. Qed.
End Ext.

Lemma f_handle_slots_ext rnd hit hit' d bounds beta alpha inverted vs sched sched' ts :
  (forall t x, In t ts -> hit t x = hit' t x) -> forall ps,
  f_handle_slots rnd hit d bounds beta alpha inverted vs sched ts ps =
  f_handle_slots rnd hit' d bounds beta alpha inverted vs sched' ts ps.
Proof.
  induction ts as [|t ts IH]; intros H ps; cbn [f_handle_slots]; auto.
  assert (Ht : forall x, hit t x = hit' t x) by (intros; apply H; left; auto).
  rewrite (f_handle_layer_ext rnd hit hit' d bounds beta alpha inverted vs sched sched' t Ht true ps).
  destruct (f_handle_layer rnd hit' _ _ _ _ _ _ _ t true ps) as [ps1| |]; cbn [obind]; auto.
  rewrite (f_handle_layer_ext rnd hit hit' d bounds beta alpha inverted vs sched sched' t Ht false ps1).
  destruct (f_handle_layer rnd hit' _ _ _ _ _ _ _ t false ps1) as [ps2| |]; cbn [obind]; auto.
  apply IH. intros; apply H; right; auto.
Qed.

Lemma f_handle_slots_app rnd hit d bounds beta alpha inverted vs sched ts : forall us ps,
  f_handle_slots rnd hit d bounds beta alpha inverted vs sched (ts ++ us) ps =
  do ps' <- f_handle_slots rnd hit d bounds beta alpha inverted vs sched ts ps;
  f_handle_slots rnd hit d bounds beta alpha inverted vs sched us ps'.
Proof.
  induction ts as [|t ts IH]; intros us ps; cbn [app f_handle_slots obind]; auto.
  destruct (f_handle_layer _ _ _ _ _ _ _ _ _ t true ps) as [ps1| |]; cbn [obind]; auto.
  destruct (f_handle_layer _ _ _ _ _ _ _ _ _ t false ps1) as [ps2| |]; cbn [obind]; auto.
Qed.

(** ** Top level *)
Section Top.
  Context {C D : Type}.
  Variable outside : D.
  Variable rnd : Q -> Q.

  Lemma f_graph_search_correct F u small sched (p : ssco C D) vs inverted alpha :
    rounds rnd F u small -> representable_instance F small alpha p ->
    searchable p -> grid_for vs (s_bounds p) -> (0 <= alpha)%Q ->
    let n := search_roundings (s_tend p) (Z.of_nat (list_sum (v_bound vs))) inverted in
    exists path cache,
      f_graph_search rnd outside sched p vs None inverted alpha None = Ok (path, cache) /\
      allowed_schedule (s_tend p) (v_values vs) (s_bounds p) (gp_xs path) /\
      is_fin (gp_cost path) /\
      up_to_rounding u n (schedule_cost p alpha false (gp_xs path)) (gp_cost path) /\
      forall ys, allowed_schedule (s_tend p) (v_values vs) (s_bounds p) ys ->
        at_most_rounding u n (gp_cost path) (schedule_cost p alpha false ys).
  Proof.
    intros HR (Hhit & Hfine) (Hne & Hd & Hsw & Hpos & HT & Hb0 & Htl & Hf0) (Hinc & H0 & Hbv) Ha n.
    assert (Hf : forall t, (1 <= t <= s_tend p)%Z -> is_fin (c_cost (ssco_hit_cost outside p t (s_bounds p)))).
    { intros t Ht. unfold ssco_hit_cost. replace (within (s_bounds p) (s_bounds p)) with true; auto.
      clear - Hb0. symmetry. induction Hb0; cbn; auto. rewrite IHHb0, (proj2 (Z.leb_le 0 x)), Z.leb_refl by lia.
      reflexivity. }
    assert (Hlen : length (v_bound vs) = length (s_bounds p)) by (clear - Hbv; induction Hbv; cbn; auto).
    assert (Hv0 : val vs 0 = 0%Z).
    { unfold val. destruct (v_values vs) as [|z l]; [discriminate|]. cbn in *. congruence. }
    assert (Hin : forall k, nth k (v_bound vs) 0 < length (v_values vs)).
    { intros k. destruct (lt_dec k (length (v_bound vs))) as [Hk|Hk].
      - clear - Hbv Hk. revert k Hk. induction Hbv as [|i v bs us Hi H IH]; intros [|k] Hk; cbn in *; try lia.
        + apply nth_error_Some. congruence.
        + apply IH. lia.
      - rewrite nth_overflow by lia. destruct (v_values vs); [discriminate|]. cbn. lia. }
    assert (Hb : s_bounds p = map (val vs) (v_bound vs)).
    { clear - Hbv. induction Hbv as [|i v bs us Hi H IH]; cbn; auto. f_equal; auto.
      unfold val. symmetry. apply nth_error_nth. exact Hi. }
    assert (Hbp : forall k, 1 <= k -> k < length (v_bound vs) -> 1 <= nth k (v_bound vs) 0).
    { intros k Hk Hk'. destruct (nth k (v_bound vs) 0) as [|] eqn:E; [|lia]. exfalso.
      rewrite Hb in Htl. destruct (v_bound vs) as [|i bs]; [cbn in Hk'; lia|]. cbn [map tl] in Htl.
      destruct k as [|k]; [lia|]. cbn in E, Hk'. rewrite Forall_forall in Htl.
      specialize (Htl (val vs 0)). rewrite Hv0 in Htl. assert (In 0%Z (map (val vs) bs)).
      { apply in_map_iff. exists 0. split; auto. rewrite <- E. apply nth_In. lia. }
      apply Htl in H. lia. }
    assert (Hdpos : 0 < length (v_bound vs)).
    { rewrite Hlen. destruct (s_bounds p); [contradiction|cbn; lia]. }
    assert (Hd' : s_d p = Z.of_nat (length (v_bound vs))) by lia.
    assert (HhF : forall t x, match c_cost (ssco_hit_cost outside p t x) with Fin q => F q | Inf => True end).
    { intros t x. rewrite hit_restricted. unfold restricted. specialize (Hhit t x).
      destruct (inside (s_bounds p) x); [apply Hhit; reflexivity|exact I]. }
    destruct (f_slots_result rnd F u small HR (fun t x => c_cost (ssco_hit_cost outside p t x))
      (s_d p) (s_bounds p) (s_switching p) alpha inverted vs sched
      Hd' Hdpos Hin Hbp Hb Hv0 Hinc ltac:(lia) Hfine Ha HhF (s_tend p) HT Hf)
      as (ps & path & H1 & H2 & H3 & H4 & H5 & H6).
    exists path, (mkCache (s_tend p) ps). split; [|split; [exact H3|]].
    - unfold f_graph_search. cbn [fst snd]. rewrite H1. cbn [obind]. rewrite H2. reflexivity.
    - split; [exact H5|]. unfold n.
      assert (E : forall ys, total_cost (fun t x => c_cost (ssco_hit_cost outside p t x))
                    (power_up (s_switching p)) alpha 1 (repeat 0%Z (length (v_bound vs))) ys
                  = schedule_cost p alpha false ys).
      { intros ys. unfold schedule_cost, zero_config. rewrite Hd', Nat2Z.id. unfold switching.
        apply (total_restricted outside). }
      rewrite E in H4. split; [exact H4|].
      intros ys Hy. rewrite <- E. apply H6. exact Hy.
  Qed.

  Lemma f_graph_search_resume sched1 sched2 sched3 (p1 p2 : ssco C D) vs inverted alpha path1 cache1 :
    s_d p1 = s_d p2 -> s_bounds p1 = s_bounds p2 -> s_switching p1 = s_switching p2 ->
    (0 <= s_tend p1 <= s_tend p2)%Z ->
    (forall t x, (1 <= t <= s_tend p1)%Z -> c_cost (s_hit p1 t x) = c_cost (s_hit p2 t x)) ->
    f_graph_search rnd outside sched1 p1 vs None inverted alpha None = Ok (path1, cache1) ->
    f_graph_search rnd outside sched2 p2 vs (Some cache1) inverted alpha None
    = f_graph_search rnd outside sched3 p2 vs None inverted alpha None.
  Proof.
    intros Hd Hb Hs HT Hh H. unfold f_graph_search in *. cbn [fst snd] in *.
    destruct (f_handle_slots _ _ _ _ _ _ _ _ sched1 _ _) as [ps1| |] eqn:E1; cbn [obind] in H; try discriminate.
    destruct (from_option _) as [pa| |]; cbn [obind] in H; try discriminate. inversion H; subst; clear H.
    cbn [ca_t ca_paths].
    rewrite (zrange_app 1 (s_tend p1) (s_tend p2)) by lia. rewrite f_handle_slots_app.
    rewrite (f_handle_slots_ext _ _ (fun t x => c_cost (ssco_hit_cost outside p2 t x)) _ _ _ _ _ _ sched1 sched3) in E1.
    2:{ intros t x Ht. apply zrange_In in Ht. unfold ssco_hit_cost. rewrite Hb.
        destruct (within (s_bounds p2) x); auto. }
    rewrite Hd, Hb, Hs in E1. rewrite E1. cbn [obind].
    rewrite (f_handle_slots_ext _ _ (fun t x => c_cost (ssco_hit_cost outside p2 t x)) _ _ _ _ _ _ sched2 sched3)
      by reflexivity. reflexivity.
  Qed.

  Lemma f_graph_search_sched sched1 sched2 (p : ssco C D) vs cache inverted alpha l :
    f_graph_search rnd outside sched1 p vs cache inverted alpha l
    = f_graph_search rnd outside sched2 p vs cache inverted alpha l.
  Proof.
    unfold f_graph_search. destruct l; auto.
    rewrite (f_handle_slots_ext _ _ (fun t x => c_cost (ssco_hit_cost outside p t x)) _ _ _ _ _ _ sched1 sched2)
      by reflexivity. reflexivity.
  Qed.

  Lemma sum_to_nat bounds : Forall (fun x => 0 <= x)%Z bounds ->
    Z.of_nat (list_sum (map Z.to_nat bounds)) = fold_right Z.add 0%Z bounds.
  Proof. unfold list_sum. induction 1 as [|z l Hz H IH]; cbn [map fold_right]; lia. Qed.

  Lemma f_optimal_graph_search_correct F u small sched (p : ssco C D) inverted alpha :
    rounds rnd F u small -> representable_instance F small alpha p ->
    searchable p -> (0 <= alpha)%Q ->
    let n := search_roundings (s_tend p) (fold_right Z.add 0%Z (s_bounds p)) inverted in
    exists path cache,
      f_optimal_graph_search rnd outside sched p None inverted alpha None = Ok (path, cache) /\
      feasible_schedule (s_tend p) (s_bounds p) (gp_xs path) /\
      is_fin (gp_cost path) /\
      up_to_rounding u n (schedule_cost p alpha false (gp_xs path)) (gp_cost path) /\
      forall ys, feasible_schedule (s_tend p) (s_bounds p) ys ->
        at_most_rounding u n (gp_cost path) (schedule_cost p alpha false ys).
  Proof.
    intros HR Hrep Hs Ha n. assert (Hs' := Hs). destruct Hs' as (Hne & _ & _ & _ & _ & Hb0 & _).
    destruct (max_of_ex (s_bounds p) Hne) as (m & Hm). destruct (max_of_spec _ _ Hm) as [_ Hmx].
    assert (Hbm : Forall (fun u => 0 <= u <= m)%Z (s_bounds p)).
    { rewrite Forall_forall in *. intros v Hv. split; auto. }
    unfold f_optimal_graph_search. rewrite Hm. cbn [from_option obind].
    destruct (f_graph_search_correct F u small sched p _ inverted alpha HR Hrep Hs (grid_for_all _ m Hbm Hne) Ha)
      as (path & cache & H1 & H2 & H3 & H4 & H5).
    cbn [v_values v_bound] in *. rewrite sum_to_nat in H4, H5 by auto.
    exists path, cache. split; [exact H1|].
    split; [apply (allowed_feasible _ _ _ _ Hbm) in H2; exact H2|]. split; [exact H3|]. split; [exact H4|].
    intros ys Hy. apply H5. apply (allowed_feasible _ _ _ _ Hbm); auto.
  Qed.

  Lemma f_optimal_resume sched1 sched2 sched3 (p1 p2 : ssco C D) inverted alpha path1 cache1 :
    s_d p1 = s_d p2 -> s_bounds p1 = s_bounds p2 -> s_switching p1 = s_switching p2 ->
    (0 <= s_tend p1 <= s_tend p2)%Z ->
    (forall t x, (1 <= t <= s_tend p1)%Z -> c_cost (s_hit p1 t x) = c_cost (s_hit p2 t x)) ->
    f_optimal_graph_search rnd outside sched1 p1 None inverted alpha None = Ok (path1, cache1) ->
    f_optimal_graph_search rnd outside sched2 p2 (Some cache1) inverted alpha None
    = f_optimal_graph_search rnd outside sched3 p2 None inverted alpha None.
  Proof.
    intros Hd Hb Hs HT Hh H. unfold f_optimal_graph_search in *. rewrite Hb in H.
    destruct (from_option (max_of (s_bounds p2))) as [m| |]; cbn [obind] in *; auto.
    eapply f_graph_search_resume; eauto.
  Qed.
End Top.

(** ** Without rounding: the exact functions *)
Lemma f_par_sum_id {C D} (merge : C -> C -> C) s (l : list (cost C D)) :
  f_par_sum (fun q => q) merge s l = par_sum merge s l.
Proof. reflexivity. Qed.

Lemma fold_sum_id l : forall acc, (fold_left (fun a y => a + y) l acc == acc + Qsum l)%Q.
Proof. induction l as [|y l IH]; intros acc; cbn [fold_left Qsum]; [ring|]. rewrite IH. ring. Qed.

Lemma f_scaled_movement_id beta inverted : forall x y,
  (f_scaled_movement (fun q => q) beta x y inverted == scaled_movement inject_Z beta x y inverted)%Q.
Proof.
  intros x y. unfold f_scaled_movement. rewrite fold_sum_id, Qplus_0_l.
  revert x y. induction beta as [|q beta IH]; intros [|j x] [|i y]; cbn [f_products Qsum scaled_movement]; try reflexivity.
  rewrite IH. reflexivity.
Qed.

Lemma f_objective_id {C D} (merge : C -> C -> C) (outside : D) s (p : ssco C D) xs default alpha inverted t_end :
  eeq (c_cost (f_objective_with_default (fun q => q) merge outside s p xs default alpha inverted t_end))
      (c_cost (objective_with_default merge s (ssco_problem outside p) xs default alpha inverted t_end)).
Proof.
  unfold f_objective_with_default, objective_with_default, sum_over_schedule.
  rewrite f_par_sum_id, !par_sum_cost, !map_map.
  generalize (zrange 1 t_end). intros ts. induction ts as [|t ts IH]; cbn [map esum]; [reflexivity|].
  rewrite IH. apply eadd_proper; [|reflexivity]. unfold f_step_cost, step_cost. cbn [c_cost ssco_problem p_tend p_hit p_move].
  apply eadd_proper; [reflexivity|]. cbn [eeq]. unfold ssco_movement. rewrite f_scaled_movement_id. reflexivity.
Qed.

(** ** Errors in plain numbers *)
Lemma relative_error u n : (0 <= u)%Q -> (u < 1)%Q -> (0 <= n)%Z ->
  (1 - inject_Z n * u <= Qpower (1 - u) n)%Q /\ (Qpower (1 + u) n * (1 - inject_Z n * u) <= 1)%Q.
Proof.
  intros H0 H1 Hn. rewrite <- (Z2Nat.id n) by auto. rewrite <- !pw_Qpower. generalize (Z.to_nat n). clear n Hn. intros n.
  induction n as [|n [IH1 IH2]]; cbn [pw].
  - change (inject_Z (Z.of_nat 0)) with 0%Q. lra.
  - rewrite Nat2Z.inj_succ. unfold Z.succ. rewrite inject_Z_plus. change (inject_Z 1) with 1%Q.
    assert (Hi : (0 <= inject_Z (Z.of_nat n))%Q) by (change 0%Q with (inject_Z 0); rewrite <- Zle_Qle; lia).
    set (m := inject_Z (Z.of_nat n)) in *.
    assert (P : (0 <= pw (1 + u) n)%Q).
    { clear - H0. induction n; cbn [pw]; [lra|]. apply Qmult_le_0_compat; lra. }
    assert (Hmu : (0 <= m * u)%Q) by (apply Qmult_le_0_compat; auto).
    assert (Huu : (0 <= m * u * u)%Q) by (apply Qmult_le_0_compat; auto).
    split.
    + assert (X : (0 <= (pw (1 - u) n - (1 - m * u)) * (1 - u))%Q) by (apply Qmult_le_0_compat; lra).
      cbv beta in X. nra.
    + assert (X : (0 <= pw (1 + u) n * (m * u * u + u * u))%Q).
      { apply Qmult_le_0_compat; auto. assert (0 <= u * u)%Q by (apply Qmult_le_0_compat; auto). lra. }
      cbv beta in X. nra.
Qed.
