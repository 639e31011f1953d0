(** Lazy capacity provisioning only uses the costs known so far. *)
From Coq Require Import Lia.
From Verif Require Import NumLemmas CostSpec CostProofs ConvertProofs ConvertObjective CapacityModel CapacitySpec OfflineModel SessionModel SessionSpec SessionStream.
From Verif Require Import ProblemModel CostModel.
Local Open Scope Z_scope.

(** *** The search only evaluates the costs of the slots it plans *)
Section Search.
  Variables hit hit' : Z -> Z -> ext.
  Variables beta alpha : Q.
  Variable inverted : bool.
  Variable x_start : Z.
  Variable t_end : Z.
  Hypothesis HH : forall t j, 1 <= t <= t_end -> hit t j = hit' t j.

  Lemma pick_source_ext ps t to : 1 <= t <= t_end -> forall from picked,
    pick_source hit beta alpha inverted ps t to from picked = pick_source hit' beta alpha inverted ps t to from picked.
  Proof.
    intros Ht. induction from as [|a from IH]; intros picked; [reflexivity|]. cbn [pick_source]. unfold build_cost. rewrite (HH t to Ht).
    destruct (from_option _); cbn [obind]; [apply IH|reflexivity|reflexivity].
  Qed.

  Lemma find_subpaths_ext t from : 1 <= t <= t_end -> forall rows ps,
    find_subpaths hit beta alpha inverted ps t from rows = find_subpaths hit' beta alpha inverted ps t from rows.
  Proof.
    intros Ht. induction rows as [|j rows IH]; intros ps; [reflexivity|]. cbn [find_subpaths]. unfold find_shortest_subpath.
    destruct from as [|s0 from]; [reflexivity|]. rewrite (pick_source_ext ps t j Ht).
    destruct (pick_source hit' beta alpha inverted ps t j (s0 :: from) (s0, Inf)) as [pk| |]; cbn [obind]; [|reflexivity|reflexivity].
    destruct (update_paths ps t (fst pk) j (snd pk)); cbn [obind]; [apply IH|reflexivity|reflexivity].
  Qed.

  Lemma find_layers_ext sel : forall ts ps prev, Forall (fun t => 1 <= t <= t_end) ts ->
    find_layers hit beta alpha inverted sel ps prev ts = find_layers hit' beta alpha inverted sel ps prev ts.
  Proof.
    induction ts as [|t ts IH]; intros ps prev H; [reflexivity|]. cbn [find_layers]. destruct (sel t) as [rows| |]; cbn [obind]; [|reflexivity|reflexivity].
    rewrite (find_subpaths_ext t prev (Forall_inv H)). destruct (find_subpaths hit' beta alpha inverted ps t prev rows) as [ps'| |]; cbn [obind]; [|reflexivity|reflexivity].
    apply IH. exact (Forall_inv_tail H).
  Qed.

  Lemma find_schedule_ext sel :
    find_schedule hit beta alpha inverted x_start t_end sel = find_schedule hit' beta alpha inverted x_start t_end sel.
  Proof.
    unfold find_schedule. rewrite find_layers_ext; [reflexivity|]. apply Forall_forall. intros t Ht. apply zrange_In in Ht. exact Ht.
  Qed.

  Lemma refine_ext m : forall n p, refine hit beta alpha inverted x_start t_end m n p = refine hit' beta alpha inverted x_start t_end m n p.
  Proof.
    induction n as [|n IH]; intros p; [reflexivity|]. cbn [refine]. rewrite find_schedule_ext.
    destruct (find_schedule hit' beta alpha inverted x_start t_end _); cbn [obind]; [apply IH|reflexivity|reflexivity].
  Qed.

  Lemma search_pow2_ext m : search_pow2 hit beta alpha inverted x_start t_end m = search_pow2 hit' beta alpha inverted x_start t_end m.
  Proof.
    unfold search_pow2. rewrite find_schedule_ext. destruct (find_schedule hit' beta alpha inverted x_start t_end _); cbn [obind]; [apply refine_ext|reflexivity|reflexivity].
  Qed.
End Search.

Lemma search_1d_ext {C D} (outside : D) (p q : ssco C D) x_start inverted alpha l :
  s_d p = s_d q -> s_tend p = s_tend q -> s_bounds p = s_bounds q -> s_switching p = s_switching q ->
  (forall t x, 1 <= t <= s_tend q -> s_hit p t x = s_hit q t x) ->
  optimal_graph_search_1d outside p x_start inverted alpha l = optimal_graph_search_1d outside q x_start inverted alpha l.
Proof.
  intros Ed Et Eb Es Eh. unfold optimal_graph_search_1d. rewrite Ed, Eb, Es, Et.
  destruct l; [reflexivity|]. destruct (negb (s_d q =? 1)); [reflexivity|].
  destruct (s_bounds q) as [|m0 [|? ?]] eqn:EB; try reflexivity. destruct (s_switching q) as [|b [|? ?]]; try reflexivity.
  apply search_pow2_ext. intros t j Ht. f_equal.
  assert (EH : forall x, ssco_hit_cost outside p t x = ssco_hit_cost outside q t x).
  { intros x. unfold ssco_hit_cost. rewrite Eb, EB. destruct (within [m0] x); [apply Eh; exact Ht|reflexivity]. }
  destruct (is_pow_of_2 m0); [apply EH|]. unfold ssco_hit_cost at 1 2. cbn [make_pow_of_2 s_bounds s_hit].
  destruct (within [padded_bound m0] [j]); [|reflexivity]. destruct (j <=? m0); [apply EH|]. rewrite !EH. reflexivity.
Qed.

Section Lcp.
  Context {C D : Type}.
  Variable vmerge : C -> C -> outcome C.
  Variable outside : D.

  (** *** Causality *)
  Lemma reset_agree n (p q : gssco Z C D) s : 0 <= s -> agree n p q -> agree (n - s) (ssco_reset p s) (ssco_reset q s).
  Proof.
    intros Hs (A & B & E & F). repeat split; auto. intros t x Ht. cbn [ssco_reset g_cost]. rewrite !reset_predictive by lia.
    unfold shift_time. destruct (1 <=? _); [|reflexivity]. rewrite F by lia. reflexivity.
  Qed.

  Lemma find_bound_agree (p q : gssco Z C D) inverted w t_end t_start x_start : 0 <= t_start ->
    g_tend p = g_tend q -> agree (g_tend p + w) p q ->
    find_bound_ssco vmerge outside p inverted w t_end t_start x_start = find_bound_ssco vmerge outside q inverted w t_end t_start x_start.
  Proof.
    intros Hs Ht HA. unfold find_bound_ssco. pose proof HA as (Ed & Eb & Es & _). rewrite Ht, Ed.
    destruct (g_tend q <? t_end); [reflexivity|]. destruct (negb (g_d q =? 1)); [reflexivity|]. destruct (t_end <=? 0); [reflexivity|].
    pose proof (reset_agree _ p q t_start Hs HA) as HR. cbv zeta. cbn [ssco_reset g_d g_tend g_bounds g_switching g_cost] in *.
    rewrite ?Ht, ?Ed, ?Eb, ?Es.
    set (p' := mkGSSCO (g_d q) (g_tend q - t_start + w) (g_bounds q) (g_switching q) (cf_reset (g_cost p) t_start)).
    set (q' := mkGSSCO (g_d q) (g_tend q - t_start + w) (g_bounds q) (g_switching q) (cf_reset (g_cost q) t_start)).
    assert (HR' : agree (g_tend q - t_start + w) p' q').
    { destruct HR as (_ & _ & _ & F). repeat split; auto. intros t x Htx. cbn [p' q' g_cost]. apply F. lia. }
    assert (ES : optimal_graph_search_1d outside (search_view vmerge outside p') x_start inverted 1 None
               = optimal_graph_search_1d outside (search_view vmerge outside q') x_start inverted 1 None).
    { apply search_1d_ext; try reflexivity. intros t x Htx. cbn [search_view s_hit]. destruct HR' as (_ & _ & _ & F).
      rewrite !call_mean_of_predictive, F by exact Htx. reflexivity. }
    assert (EO : omap (fun t => omap (gssco_hit valZ vmerge outside p' t) (configs_of (map (zrange 0) (g_bounds q)))) (zrange 1 (g_tend q - t_start + w))
               = omap (fun t => omap (gssco_hit valZ vmerge outside q' t) (configs_of (map (zrange 0) (g_bounds q)))) (zrange 1 (g_tend q - t_start + w))).
    { apply omap_ext. intros t Htt. apply zrange_In in Htt. apply omap_ext. intros x _.
      apply (agree_hit valZ vmerge outside _ p' q' t x HR'). exact Htt. }
    rewrite ES, EO. reflexivity.
  Qed.

  Lemma initial_time_nonneg (bs : list (bounds_memory Z)) r : find_initial_time valZ bs = Ok r -> 0 <= fst r.
  Proof.
    unfold find_initial_time. generalize (length bs). induction n as [|n IH]; cbn [find_initial_from]; intros H; [injection H as <-; cbn; lia|].
    destruct n as [|k]; [injection H as <-; cbn; lia|].
    destruct (from_option (nth_error bs k)) as [pb| |]; cbn [obind] in H; try discriminate.
    destruct (from_option (nth_error bs (S k))) as [b| |]; cbn [obind] in H; try discriminate.
    destruct (_ && _); [injection H as <-; cbn [fst]; lia|]. apply IH. exact H.
  Qed.

  Lemma lcp_causal : causal (lcp_ssco vmerge outside).
  Proof.
    intros p q w t xs mem Ht HA. unfold lcp_ssco, lcp. cbn [on_p on_w bo_d bo_tend bo_w bo_lower bo_upper].
    pose proof HA as (Ed & _). rewrite Ed, Ht. destruct (negb (g_d q =? 1)); [reflexivity|]. destruct (negb _); [reflexivity|].
    destruct (find_initial_time valZ mem) as [st| |] eqn:EI; cbn [obind]; try reflexivity. apply initial_time_nonneg in EI.
    destruct (now_value valZ xs); cbn [obind]; try reflexivity.
    rewrite !(find_bound_agree p q) by assumption. reflexivity.
  Qed.

  Lemma lcp_memory_causal : causal_memory (@lcp_memory C D).
  Proof. intros p q w _ _. reflexivity. Qed.
End Lcp.
