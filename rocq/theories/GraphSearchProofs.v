(** Correctness of the multi-dimensional graph search at top level. *)
From Verif Require Import NumLemmas GraphSearchModel GraphSearchSpec GraphSearchOrder GraphSearchPick
  GraphSearchWalk GraphSearchCosts GraphSearchDP ObjectiveProofs.
From Coq Require Import Arith.
Local Open Scope nat_scope.

Lemma increasing_tail a l : increasing (a :: l) -> increasing l.
Proof. cbn. tauto. Qed.

Lemma increasing_head l : forall a, increasing (a :: l) -> Forall (fun x => a < x)%Z l.
Proof.
  induction l as [|b l IH]; intros a H; constructor.
  - cbn in H. tauto.
  - assert (H' := increasing_tail _ _ H). apply IH in H'. cbn in H.
    eapply Forall_impl; [|exact H']. cbn. intros x Hx. lia.
Qed.

Lemma increasing_nth l : increasing l -> forall i j d d', i < j -> j < length l ->
  (nth i l d < nth j l d')%Z.
Proof.
  induction l as [|a l IH]; intros H i j d d' Hij Hj; cbn in Hj; [lia|].
  destruct j as [|j]; [lia|]. destruct i as [|i]; cbn [nth].
  - assert (F := increasing_head _ _ H). rewrite Forall_forall in F. apply F. apply nth_In. lia.
  - apply IH; [apply (increasing_tail _ _ H)|lia|lia].
Qed.

Lemma last_nth_pred (l : list Z) d : last l d = nth (length l - 1) l d.
Proof.
  induction l as [|a l IH]; [reflexivity|]. destruct l as [|b l]; [reflexivity|].
  change (last (a :: b :: l) d) with (last (b :: l) d). rewrite IH. cbn. rewrite Nat.sub_0_r. reflexivity.
Qed.

Lemma val_mono_inc vs : increasing (v_values vs) -> forall i j, i <= j -> (val vs i <= val vs j)%Z.
Proof.
  intros H i j Hij. unfold val. set (l := v_values vs) in *.
  destruct (lt_dec j (length l)) as [Hj|Hj].
  - destruct (Nat.eq_dec i j) as [->|Hne]; [lia|].
    apply Z.lt_le_incl. apply increasing_nth; auto. lia.
  - rewrite (nth_overflow l (n := j)) by lia.
    destruct (lt_dec i (length l)) as [Hi|Hi]; [|rewrite nth_overflow by lia; lia].
    rewrite (last_nth_pred l 0%Z) at 2.
    destruct (Nat.eq_dec i (length l - 1)) as [->|Hne].
    + rewrite (nth_indep l _ 0%Z) by lia. lia.
    + apply Z.lt_le_incl. apply increasing_nth; auto; lia.
Qed.

Lemma val_strict_inc vs : increasing (v_values vs) -> forall i j, i < j -> j < length (v_values vs) ->
  (val vs i < val vs j)%Z.
Proof. intros H i j Hij Hj. apply increasing_nth; auto. Qed.

Lemma In_val vs j : In j (v_values vs) -> exists i, i < length (v_values vs) /\ val vs i = j.
Proof. intros H. apply (In_nth _ _ (last (v_values vs) 0%Z)) in H. exact H. Qed.

Section Slots.
  Variable hit : Z -> list Z -> ext.
  Variable d : Z.
  Variable bounds : list Z.
  Variable beta : list Q.
  Variable alpha : Q.
  Variable inverted : bool.
  Variable vs : gvalues.
  Variable sched : Z -> vertice -> ProblemModel.split.
  Let b := v_bound vs.
  Let dn := length b.
  Notation val := (val vs).
  Notation mkv := (mkv vs).
  Hypothesis d_dn : d = Z.of_nat dn.
  Hypothesis dn_pos : 0 < dn.
  Hypothesis b_in : forall k, nth k b 0 < length (v_values vs).
  Hypothesis b_pos : forall k, 1 <= k -> k < dn -> 1 <= nth k b 0.
  Hypothesis bounds_val : bounds = map val b.
  Hypothesis val_0 : val 0 = 0%Z.
  Hypothesis inc : increasing (v_values vs).
  Hypothesis beta_len : length beta = dn.
  Hypothesis beta_nonneg : Forall (fun q => 0 <= q)%Q beta.
  Hypothesis alpha_nonneg : (0 <= alpha)%Q.

  Let mono := val_mono_inc vs inc.
  Let strict := val_strict_inc vs inc.

  Notation GoodDn := (GoodDn hit beta alpha inverted vs).
  Notation GoodUp := (GoodUp hit beta alpha inverted vs).
  Notation InvUp := (InvUp hit beta alpha inverted vs).
  Notation InvDn := (InvDn hit beta alpha inverted vs).
  Notation hlayer := (handle_layer hit d bounds beta alpha inverted vs sched).
  Notation hslots := (handle_slots hit d bounds beta alpha inverted vs sched).

  Definition AllDn (t : Z) (ps : gpaths) : Prop :=
    (1 <= t)%Z -> forall v, box b v -> stored ps (mkv v, false) (GoodDn t v).

  Lemma up_layer t ps : (1 <= t)%Z -> AllDn (t - 1) ps ->
    exists ps', hlayer t true ps = Ok ps' /\ forall v, box b v -> stored ps' (mkv v, true) (GoodUp t v).
  Proof.
    intros Ht HA.
    destruct (layer_inv hit d bounds beta alpha inverted vs sched d_dn b_in bounds_val val_0 t true (InvUp t))
      with (ps := ps) as (ps' & H1 & H2); auto.
    - intros ps0 S S' Hi [Ha Hb]. split; auto.
    - intros k S a ps0 Hk Ha Hz HS HI. eapply up_step; eauto.
    - split; [|intros a []]. intros Ht1. apply HA. lia.
    - exists ps'. split; auto. intros v Hv. destruct H2 as [_ H2].
      apply (H2 v). apply stage_spec; [unfold b; lia|]. split; auto.
      intros l Hl. apply nth_overflow. apply box_length in Hv. unfold b in *. lia.
  Qed.

  Lemma dn_layer t ps : (1 <= t)%Z -> is_fin (hit t bounds) ->
    (forall v, box b v -> stored ps (mkv v, true) (GoodUp t v)) ->
    exists ps', hlayer t false ps = Ok ps' /\ AllDn t ps'.
  Proof.
    intros Ht Hf HA.
    destruct (layer_inv hit d bounds beta alpha inverted vs sched d_dn b_in bounds_val val_0 t false (InvDn t))
      with (ps := ps) as (ps' & H1 & H2); auto.
    - intros ps0 S S' Hi [Ha Hb]. split; auto.
    - intros k S a ps0 Hk Ha Hz HS HI. eapply dn_step; eauto.
    - split; [exact HA|intros a []].
    - exists ps'. split; auto. intros _ v Hv. destruct H2 as [_ H2].
      specialize (H2 (vsub b v)).
      assert (E : emb vs false (vsub b v) = v) by (unfold emb; fold b; apply vsub_invol; auto).
      unfold cfgof in H2. rewrite E in H2. apply H2.
      apply stage_spec; [unfold b; lia|]. split; [apply vsub_box; auto|].
      intros l Hl. apply nth_overflow. rewrite vsub_length by (apply box_length; auto). unfold b; lia.
  Qed.

  Lemma slots_ok : forall n T0 ps, (0 <= T0)%Z ->
    (forall t, T0 < t <= T0 + Z.of_nat n -> is_fin (hit t bounds))%Z -> AllDn T0 ps ->
    exists ps', hslots (zrange (T0 + 1) (T0 + Z.of_nat n)) ps = Ok ps' /\ AllDn (T0 + Z.of_nat n) ps'.
  Proof.
    induction n as [|n IH]; intros T0 ps H0 Hf HA.
    - rewrite zrange_nil by lia. exists ps. split; auto. rewrite Z.add_0_r. exact HA.
    - rewrite zrange_cons by lia. cbn [handle_slots].
      destruct (up_layer (T0 + 1) ps) as (ps1 & -> & H1); [lia|rewrite Z.add_simpl_r; auto|]. cbn [obind].
      destruct (dn_layer (T0 + 1) ps1) as (ps2 & -> & H2); [lia|apply Hf; lia|auto|]. cbn [obind].
      destruct (IH (T0 + 1)%Z ps2) as (ps3 & H3 & H4); [lia|intros; apply Hf; lia|auto|].
      exists ps3. replace (T0 + Z.of_nat (S n))%Z with (T0 + 1 + Z.of_nat n)%Z by lia. split; auto.
  Qed.

  Lemma gridc_allowed x : gridc vs x <-> allowed_config (v_values vs) bounds x.
  Proof.
    unfold gridc, allowed_config. fold b. rewrite bounds_val.
    assert (Hb : Forall (fun i => i < length (v_values vs)) b).
    { apply Forall_forall. intros i Hi. apply (In_nth _ _ 0) in Hi. destruct Hi as (k & Hk & <-). apply b_in. }
    clear - Hb val_0 mono strict inc. unfold box. revert x Hb. generalize b. intros c. induction c as [|i c IH]; intros x Hb; cbn [map].
    - split.
      + intros (w & Hw & ->). inversion Hw; subst. constructor.
      + intros H. inversion H; subst. exists []. split; auto.
    - inversion Hb as [|? ? Hi Hb']; subst. specialize (IH). split.
      + intros (w & Hw & ->). inversion Hw as [|j ? w' ? Hj Hw']; subst. cbn [map]. constructor.
        * split; [unfold GraphSearchWalk.val; apply nth_In; lia|].
          assert (M1 := mono 0 j ltac:(lia)). assert (M2 := mono j i Hj). rewrite val_0 in M1. lia.
        * apply IH; auto. exists w'. auto.
      + intros H. inversion H as [|u j ? x' Hj Hx']; subst.
        apply IH in Hx'; auto. destruct Hx' as (w & Hw & ->). destruct Hj as [Hin Hj].
        destruct (In_val vs j Hin) as (k & Hk & <-).
        exists (k :: w). split; [|reflexivity]. constructor; auto.
        destruct (le_dec k i) as [|Hn]; auto. assert (X := strict i k ltac:(lia) Hk). lia.
  Qed.

  Lemma grid_allowed xs : Forall (gridc vs) xs <-> Forall (allowed_config (v_values vs) bounds) xs.
  Proof.
    split; intros H; eapply Forall_impl; try exact H; intros x Hx; apply gridc_allowed; auto.
  Qed.

  Lemma AllDn_result T ps : (1 <= T)%Z -> AllDn T ps ->
    exists p, glookup ps (build_base_config d bounds vs true, false) = Some p /\
      allowed_schedule T (v_values vs) bounds (gp_xs p) /\
      is_fin (gp_cost p) /\
      eeq (gp_cost p) (total_cost hit (power_up beta) alpha 1 (repeat 0%Z dn) (gp_xs p)) /\
      forall ys, allowed_schedule T (v_values vs) bounds ys ->
        ele (gp_cost p) (total_cost hit (power_up beta) alpha 1 (repeat 0%Z dn) ys).
  Proof.
    intros HT HA.
    assert (Hz : box b (repeat 0 dn)) by (apply (stage_spec b 0); [lia|cbn; auto]).
    destruct (HA HT (repeat 0 dn) Hz) as (p & Hp & q & Hq & Hl & Hg & _ & Hfe & Hopt).
    rewrite (base_config_eq d bounds vs d_dn bounds_val val_0 true).
    exists p. split; [exact Hp|].
    assert (Hpot : (pot beta alpha inverted vs (repeat 0%nat dn) == 0)%Q).
    { unfold pot. rewrite (map_val_zero vs val_0). destruct inverted; [|reflexivity]. rewrite weighted_zero. ring. }
    assert (Habove : forall ys, Forall (gridc vs) ys -> above vs (repeat 0 dn) ys).
    { intros ys Hy. apply (grid_last beta vs dn_pos val_0 beta_len) in Hy. destruct Hy as (w & Hw & E). exists w. repeat split; auto.
      apply Forall2_le_nth; [rewrite repeat_length; apply box_length in Hw; auto|].
      intros k. rewrite nth_repeat_0. lia. }
    assert (Hmin : forall ys, allowed_schedule T (v_values vs) bounds ys ->
        ele (gp_cost p) (total_cost hit (power_up beta) alpha 1 (repeat 0%Z dn) ys)).
    { intros ys [Hly Hgy]. apply grid_allowed in Hgy. specialize (Hopt ys Hgy Hly (Habove ys Hgy)).
      rewrite Hq. fold b in Hopt. fold dn in Hopt. fold dn.
      destruct (total_cost _ _ _ _ _ ys); cbn [ele] in *; auto. lra. }
    assert (Ha : allowed_schedule T (v_values vs) bounds (gp_xs p)) by (split; [auto|apply grid_allowed; auto]).
    repeat split; try apply Ha; auto.
    - rewrite Hq. exact I.
    - apply ele_antisym; [apply Hmin; auto|]. rewrite Hq. fold b in Hfe. fold dn in Hfe.
      destruct (total_cost _ _ _ _ _ (gp_xs p)); cbn [ele] in *; auto. lra.
  Qed.

  Lemma slots_result T : (1 <= T)%Z -> (forall t, 1 <= t <= T -> is_fin (hit t bounds))%Z ->
    exists ps p, hslots (zrange 1 T) [] = Ok ps /\
      glookup ps (build_base_config d bounds vs true, false) = Some p /\
      allowed_schedule T (v_values vs) bounds (gp_xs p) /\
      is_fin (gp_cost p) /\
      eeq (gp_cost p) (total_cost hit (power_up beta) alpha 1 (repeat 0%Z dn) (gp_xs p)) /\
      forall ys, allowed_schedule T (v_values vs) bounds ys ->
        ele (gp_cost p) (total_cost hit (power_up beta) alpha 1 (repeat 0%Z dn) ys).
  Proof.
    intros HT Hf. destruct (slots_ok (Z.to_nat T) 0 []) as (ps & H1 & H2); [lia|intros; apply Hf; lia| |].
    { intros X. lia. }
    rewrite Z.add_0_l, Z2Nat.id in * by lia.
    change (0 + 1)%Z with 1%Z in H1.
    destruct (AllDn_result T ps HT H2) as (p & Hp). exists ps, p. tauto.
  Qed.
End Slots.

(** ** Independence of the division of work and of later hitting costs *)
Section Ext.
  Variables hit hit' : Z -> list Z -> ext.
  Variable d : Z.
  Variable bounds : list Z.
  Variable beta : list Q.
  Variable alpha : Q.
  Variable inverted : bool.
  Variable vs : gvalues.
  Variables sched sched' : Z -> vertice -> ProblemModel.split.

  Lemma find_optimal_sched s s' preds ps :
    find_optimal_predecessor s preds ps = find_optimal_predecessor s' preds ps.
  Proof.
    unfold find_optimal_predecessor. destruct preds as [|e preds].
    - cbn [omap obind]. rewrite !par_pick_pick. reflexivity.
    - match goal with |- context [if ?c then _ else _] => destruct c end; auto.
      match goal with |- context [obind ?m _] => destruct m end; cbn [obind]; auto. rewrite !par_pick_pick. reflexivity.
  Qed.

  Notation hc := (handle_config hit d beta alpha inverted vs sched).
  Notation hc' := (handle_config hit' d beta alpha inverted vs sched').

  Variable t : Z.
  Hypothesis agree : forall x, hit t x = hit' t x.

  Lemma handle_config_ext k up c ps : hc t k up c ps = hc' t k up c ps.
  Proof.
    unfold handle_config, find_immediate_predecessors. rewrite agree.
    destruct (neighbour_edges _ _ _ _ _ _ _); cbn [obind]; auto.
    match goal with |- context [obind ?m _] => destruct m end; cbn [obind]; auto.
    rewrite (find_optimal_sched _ (sched' t (c, up))). reflexivity.
  Qed.

  Lemma walk_ext fuel : forall k up c ps added,
    walk hit d beta alpha inverted vs sched fuel t k up c ps added =
    walk hit' d beta alpha inverted vs sched' fuel t k up c ps added.
  Proof.
    induction fuel as [|f IH]; intros k up c ps added; cbn [walk]; auto.
    rewrite handle_config_ext. destruct (hc' t k up c ps); cbn [obind]; auto.
    destruct (build_config _ _ _ _) as [[c'|]| |]; cbn [obind]; auto.
  Qed.

  Lemma handle_bases_ext k up bases : forall ps added,
    handle_bases hit d beta alpha inverted vs sched t k up bases ps added =
    handle_bases hit' d beta alpha inverted vs sched' t k up bases ps added.
  Proof.
    induction bases as [|c bases IH]; intros ps added; cbn [handle_bases]; auto.
    match goal with |- context [obind ?m _] => destruct m as [st| |] end; cbn [obind]; auto.
    rewrite walk_ext. destruct (walk _ _ _ _ _ _ _ _ _ _ _ _ _ _); cbn [obind]; auto.
  Qed.

  Lemma handle_dims_ext n : forall k up configs ps,
    handle_dims hit d beta alpha inverted vs sched n t k up configs ps =
    handle_dims hit' d beta alpha inverted vs sched' n t k up configs ps.
  Proof.
    induction n as [|n IH]; intros k up configs ps; cbn [handle_dims]; auto.
    rewrite handle_bases_ext. destruct (handle_bases _ _ _ _ _ _ _ _ _ _ _ _ _); cbn [obind]; auto.
  Qed.

  Lemma handle_layer_ext up ps :
    handle_layer hit d bounds beta alpha inverted vs sched t up ps =
    handle_layer hit' d bounds beta alpha inverted vs sched' t up ps.
  Proof. unfold handle_layer. apply handle_dims_ext. Qed.
End Ext.

Lemma handle_slots_ext hit hit' d bounds beta alpha inverted vs sched sched' ts :
  (forall t x, In t ts -> hit t x = hit' t x) -> forall ps,
  handle_slots hit d bounds beta alpha inverted vs sched ts ps =
  handle_slots hit' d bounds beta alpha inverted vs sched' ts ps.
Proof.
  induction ts as [|t ts IH]; intros H ps; cbn [handle_slots]; auto.
  assert (Ht : forall x, hit t x = hit' t x) by (intros; apply H; left; auto).
  rewrite (handle_layer_ext hit hit' d bounds beta alpha inverted vs sched sched' t Ht true ps).
  destruct (handle_layer hit' _ _ _ _ _ _ _ t true ps) as [ps1| |]; cbn [obind]; auto.
  rewrite (handle_layer_ext hit hit' d bounds beta alpha inverted vs sched sched' t Ht false ps1).
  destruct (handle_layer hit' _ _ _ _ _ _ _ t false ps1) as [ps2| |]; cbn [obind]; auto.
  apply IH. intros; apply H; right; auto.
Qed.

Lemma handle_slots_app hit d bounds beta alpha inverted vs sched ts : forall us ps,
  handle_slots hit d bounds beta alpha inverted vs sched (ts ++ us) ps =
  do ps' <- handle_slots hit d bounds beta alpha inverted vs sched ts ps;
  handle_slots hit d bounds beta alpha inverted vs sched us ps'.
Proof.
  induction ts as [|t ts IH]; intros us ps; cbn [app handle_slots obind]; auto.
  destruct (handle_layer _ _ _ _ _ _ _ _ t true ps) as [ps1| |]; cbn [obind]; auto.
  destruct (handle_layer _ _ _ _ _ _ _ _ t false ps1) as [ps2| |]; cbn [obind]; auto.
Qed.

Lemma zrange_app a m b : (a <= m + 1)%Z -> (m <= b)%Z -> zrange a b = zrange a m ++ zrange (m + 1) b.
Proof.
  intros H1 H2. replace b with (m + Z.of_nat (Z.to_nat (b - m)))%Z by lia.
  generalize (Z.to_nat (b - m)). intros n. induction n as [|n IH].
  - rewrite Z.add_0_r. rewrite (zrange_nil (m + 1)) by lia. rewrite app_nil_r. reflexivity.
  - replace (m + Z.of_nat (S n))%Z with (m + Z.of_nat n + 1)%Z by lia.
    rewrite zrange_snoc by lia. rewrite IH, <- app_assoc. f_equal.
    rewrite zrange_snoc by lia. reflexivity.
Qed.

Lemma max_of_spec l m : max_of l = Some m -> In m l /\ Forall (fun u => (u <= m)%Z) l.
Proof.
  destruct l as [|a l]; [discriminate|]. cbn [max_of]. intros H. inversion H; subst m; clear H.
  revert a. induction l as [|b l IH]; intros a; cbn [fold_left].
  - split; [left; auto|repeat constructor; lia].
  - destruct (IH (Z.max a b)) as [H1 H2]. inversion H2; subst. split.
    + destruct H1 as [H1|H1]; [|right; right; auto].
      rewrite <- H1. destruct (Z.max_dec a b) as [->| ->]; [left|right; left]; auto.
    + constructor; [lia|]. constructor; [lia|auto].
Qed.

Lemma max_of_ex l : l <> [] -> exists m, max_of l = Some m.
Proof. destruct l; [contradiction|]. intros _. eexists; reflexivity. Qed.

(** ** Top level *)
Section Top.
  Context {C D : Type}.
  Variable outside : D.

  Lemma graph_search_correct sched (p : ssco C D) vs inverted alpha :
    searchable p -> grid_for vs (s_bounds p) -> (0 <= alpha)%Q ->
    exists path cache,
      graph_search outside sched p vs None inverted alpha None = Ok (path, cache) /\
      allowed_schedule (s_tend p) (v_values vs) (s_bounds p) (gp_xs path) /\
      is_fin (gp_cost path) /\
      eeq (gp_cost path) (schedule_cost p alpha false (gp_xs path)) /\
      forall ys, allowed_schedule (s_tend p) (v_values vs) (s_bounds p) ys ->
        ele (gp_cost path) (schedule_cost p alpha false ys).
  Proof.
    intros (Hne & Hd & Hsw & Hpos & HT & Hb0 & Htl & Hf0) (Hinc & H0 & Hbv) Ha.
    assert (Hf : forall t, (1 <= t <= s_tend p)%Z -> is_fin (c_cost (ssco_hit_cost outside p t (s_bounds p)))).
    { intros t Ht. unfold ssco_hit_cost. replace (within (s_bounds p) (s_bounds p)) with true; auto.
      clear - Hb0. symmetry. induction Hb0; cbn; auto. rewrite IHHb0, (proj2 (Z.leb_le 0 x)), Z.leb_refl by lia.
      reflexivity. }
    assert (Hlen : length (v_bound vs) = length (s_bounds p)) by (clear - Hbv; induction Hbv; cbn; auto).
    assert (Hv0 : val vs 0 = 0%Z).
    { unfold val. destruct (v_values vs) as [|z l]; [discriminate|]. cbn in *. congruence. }
    assert (Hin : forall k, nth k (v_bound vs) 0 < length (v_values vs)).
    { intros k. destruct (lt_dec k (length (v_bound vs))) as [Hk|Hk].
      - clear - Hbv Hk. revert k Hk. induction Hbv as [|i u bs us Hi H IH]; intros [|k] Hk; cbn in *; try lia.
        + apply nth_error_Some. congruence.
        + apply IH. lia.
      - rewrite nth_overflow by lia. destruct (v_values vs); [discriminate|]. cbn. lia. }
    assert (Hb : s_bounds p = map (val vs) (v_bound vs)).
    { clear - Hbv. induction Hbv as [|i u bs us Hi H IH]; cbn; auto. f_equal; auto.
      unfold val. symmetry. apply nth_error_nth. exact Hi. }
    assert (Hbp : forall k, 1 <= k -> k < length (v_bound vs) -> 1 <= nth k (v_bound vs) 0).
    { intros k Hk Hk'. destruct (nth k (v_bound vs) 0) as [|] eqn:E; [|lia]. exfalso.
      rewrite Hb in Htl. destruct (v_bound vs) as [|i bs]; [cbn in Hk'; lia|]. cbn [map tl] in Htl.
      destruct k as [|k]; [lia|]. cbn in E, Hk'. rewrite Forall_forall in Htl.
      specialize (Htl (val vs 0)). rewrite Hv0 in Htl. assert (In 0%Z (map (val vs) bs)).
      { apply in_map_iff. exists 0. split; auto. rewrite <- E. apply nth_In. lia. }
      apply Htl in H. lia. }
    assert (Hdpos : 0 < length (v_bound vs)).
    { rewrite Hlen. destruct (s_bounds p); [contradiction|cbn; lia]. }
    assert (Hd' : s_d p = Z.of_nat (length (v_bound vs))) by lia.
    destruct (slots_result (fun t x => c_cost (ssco_hit_cost outside p t x))
      (s_d p) (s_bounds p) (s_switching p) alpha inverted vs sched
      Hd' Hdpos Hin Hbp Hb Hv0 Hinc ltac:(lia) Hpos Ha (s_tend p) HT Hf)
      as (ps & path & H1 & H2 & H3 & H4 & H5 & H6).
    exists path, (mkCache (s_tend p) ps). split; [|split; [exact H3|]].
    - unfold graph_search. cbn [fst snd]. rewrite H1. cbn [obind]. rewrite H2. reflexivity.
    - unfold schedule_cost, zero_config. rewrite Hd', Nat2Z.id. unfold switching. split; [exact H4|].
      split; [rewrite <- (total_restricted outside); exact H5|].
      intros ys Hy. rewrite <- (total_restricted outside). apply H6. exact Hy.
  Qed.

  Lemma graph_search_resume sched1 sched2 sched3 (p1 p2 : ssco C D) vs inverted alpha path1 cache1 :
    s_d p1 = s_d p2 -> s_bounds p1 = s_bounds p2 -> s_switching p1 = s_switching p2 ->
    (0 <= s_tend p1 <= s_tend p2)%Z ->
    (forall t x, (1 <= t <= s_tend p1)%Z -> c_cost (s_hit p1 t x) = c_cost (s_hit p2 t x)) ->
    graph_search outside sched1 p1 vs None inverted alpha None = Ok (path1, cache1) ->
    graph_search outside sched2 p2 vs (Some cache1) inverted alpha None
    = graph_search outside sched3 p2 vs None inverted alpha None.
  Proof.
    intros Hd Hb Hs HT Hh H. unfold graph_search in *. cbn [fst snd] in *.
    destruct (handle_slots _ _ _ _ _ _ _ sched1 _ _) as [ps1| |] eqn:E1; cbn [obind] in H; try discriminate.
    destruct (from_option _) as [pa| |]; cbn [obind] in H; try discriminate. inversion H; subst; clear H.
    cbn [ca_t ca_paths].
    rewrite (zrange_app 1 (s_tend p1) (s_tend p2)) by lia. rewrite handle_slots_app.
    rewrite (handle_slots_ext _ (fun t x => c_cost (ssco_hit_cost outside p2 t x)) _ _ _ _ _ _ sched1 sched3) in E1.
    2:{ intros t x Ht. apply zrange_In in Ht. unfold ssco_hit_cost. rewrite Hb.
        destruct (within (s_bounds p2) x); auto. }
    rewrite Hd, Hb, Hs in E1. rewrite E1. cbn [obind].
    rewrite (handle_slots_ext _ (fun t x => c_cost (ssco_hit_cost outside p2 t x)) _ _ _ _ _ _ sched2 sched3)
      by reflexivity. reflexivity.
  Qed.

  Lemma graph_search_sched sched1 sched2 (p : ssco C D) vs cache inverted alpha l :
    graph_search outside sched1 p vs cache inverted alpha l
    = graph_search outside sched2 p vs cache inverted alpha l.
  Proof.
    unfold graph_search. destruct l; auto.
    rewrite (handle_slots_ext _ (fun t x => c_cost (ssco_hit_cost outside p t x)) _ _ _ _ _ _ sched1 sched2)
      by reflexivity. reflexivity.
  Qed.

  Lemma zrange_nth_error m u : (0 <= u <= m)%Z -> nth_error (zrange 0 m) (Z.to_nat u) = Some u.
  Proof.
    intros H. unfold zrange. rewrite nth_error_map, nth_error_nth_lt with (d := 0) by (rewrite seq_length; lia).
    rewrite seq_nth by lia. cbn. f_equal. lia.
  Qed.

  Lemma zrange_increasing n : forall a b, (b - a < Z.of_nat n)%Z -> increasing (zrange a b).
  Proof.
    induction n as [|n IH]; intros a b H.
    - rewrite zrange_nil by lia. exact I.
    - destruct (Z_le_gt_dec a b) as [Hle|Hgt]; [|rewrite zrange_nil by lia; exact I].
      rewrite zrange_cons by lia. split; [|apply IH; lia].
      destruct (Z_le_gt_dec (a + 1) b); [rewrite zrange_cons by lia; lia|rewrite zrange_nil by lia; exact I].
  Qed.

  Lemma grid_for_all bounds m : Forall (fun u => 0 <= u <= m)%Z bounds -> bounds <> [] ->
    grid_for (mkValues (zrange 0 m) (map Z.to_nat bounds)) bounds.
  Proof.
    intros H Hne. split; [|split]; cbn [v_values v_bound].
    - apply (zrange_increasing (Z.to_nat (m + 1))). lia.
    - destruct bounds as [|u bs]; [contradiction|]. inversion H; subst. rewrite zrange_cons by lia. reflexivity.
    - clear Hne. induction H; cbn; constructor; auto. apply zrange_nth_error; auto.
  Qed.

  Lemma allowed_feasible bounds m T xs : Forall (fun u => 0 <= u <= m)%Z bounds ->
    allowed_schedule T (zrange 0 m) bounds xs <-> feasible_schedule T bounds xs.
  Proof.
    intros H. unfold allowed_schedule, feasible_schedule.
    assert (E : forall x, allowed_config (zrange 0 m) bounds x <-> feasible_config bounds x).
    { unfold allowed_config, feasible_config. induction H as [|u bs Hu H IH]; intros x.
      - split; intros F; inversion F; constructor.
      - split; intros F; inversion F; subst; constructor; try (apply IH; auto).
        + tauto.
        + split; [apply zrange_In; lia|auto]. }
    split; intros [H1 H2]; split; auto; eapply Forall_impl; try exact H2; intros x Hx; apply E; auto.
  Qed.

  Lemma optimal_graph_search_correct sched (p : ssco C D) inverted alpha :
    searchable p -> (0 <= alpha)%Q ->
    exists path cache,
      optimal_graph_search outside sched p None inverted alpha None = Ok (path, cache) /\
      feasible_schedule (s_tend p) (s_bounds p) (gp_xs path) /\
      is_fin (gp_cost path) /\
      eeq (gp_cost path) (schedule_cost p alpha false (gp_xs path)) /\
      forall ys, feasible_schedule (s_tend p) (s_bounds p) ys ->
        ele (gp_cost path) (schedule_cost p alpha false ys).
  Proof.
    intros Hs Ha. assert (Hs' := Hs). destruct Hs' as (Hne & _ & _ & _ & _ & Hb0 & _).
    destruct (max_of_ex (s_bounds p) Hne) as (m & Hm). destruct (max_of_spec _ _ Hm) as [_ Hmx].
    assert (Hbm : Forall (fun u => 0 <= u <= m)%Z (s_bounds p)).
    { rewrite Forall_forall in *. intros u Hu. split; auto. }
    unfold optimal_graph_search. rewrite Hm. cbn [from_option obind].
    destruct (graph_search_correct sched p _ inverted alpha Hs (grid_for_all _ m Hbm Hne) Ha)
      as (path & cache & H1 & H2 & H3 & H4 & H5).
    cbn [v_values] in *. exists path, cache. split; [exact H1|]. repeat split; auto.
    - apply H2.
    - apply (allowed_feasible _ _ _ _ Hbm) in H2. apply H2.
    - intros ys Hy. apply H5. apply (allowed_feasible _ _ _ _ Hbm); auto.
  Qed.

  Lemma schedule_cost_objective (merge : C -> C -> C) s (p : ssco C D) alpha inverted xs :
    Z.of_nat (length xs) = s_tend p ->
    eeq (c_cost (objective_with_default merge s (ssco_problem outside p) xs (zero_config (s_d p))
                   alpha inverted (s_tend p)))
        (schedule_cost p alpha inverted xs).
  Proof. intros H. apply objective_exact_spec. exact H. Qed.

  Lemma optimal_resume sched1 sched2 sched3 (p1 p2 : ssco C D) inverted alpha path1 cache1 :
    s_d p1 = s_d p2 -> s_bounds p1 = s_bounds p2 -> s_switching p1 = s_switching p2 ->
    (0 <= s_tend p1 <= s_tend p2)%Z ->
    (forall t x, (1 <= t <= s_tend p1)%Z -> c_cost (s_hit p1 t x) = c_cost (s_hit p2 t x)) ->
    optimal_graph_search outside sched1 p1 None inverted alpha None = Ok (path1, cache1) ->
    optimal_graph_search outside sched2 p2 (Some cache1) inverted alpha None
    = optimal_graph_search outside sched3 p2 None inverted alpha None.
  Proof.
    intros Hd Hb Hs HT Hh H. unfold optimal_graph_search in *. rewrite Hb in H.
    destruct (from_option (max_of (s_bounds p2))) as [m| |]; cbn [obind] in *; auto.
    eapply graph_search_resume; eauto.
  Qed.
End Top.
