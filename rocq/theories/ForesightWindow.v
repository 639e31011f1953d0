(** Horizon control and lazy capacity provisioning do not look into the future. *)
From Coq Require Import Lia.
From Verif Require Import NumLemmas ConvertProofs ConvertObjective StreamSpec StreamProofs WindowModel GridCapModel SessionModel SessionStream SessionLcp
  ForesightSpec ForesightModel ForesightStream ForesightSolvers ForesightDescent.
From Verif Require Import ProblemModel CostModel.
Local Open Scope Z_scope.

Section Window.
  Context {C D : Type}.
  Variable vmerge : C -> C -> outcome C.
  Variable merge : C -> C -> C.
  Variable outside : D.
  Variable nlopt : nl_problem -> outcome nl_result.
  Hypothesis HN : observes_nlopt nlopt.

  Lemma reset_alike n (p q : gssco Q C D) t0 : agree n p q -> agree (n - t0) (ssco_reset p t0) (ssco_reset q t0).
  Proof.
    intros (A & B & E & F). repeat split; auto. intros t x Ht. cbn [ssco_reset g_cost]. rewrite !reset_predictive by lia.
    destruct (1 <=? t0 + t) eqn:E1; [|reflexivity]. apply Z.leb_le in E1. rewrite F by lia. reflexivity.
  Qed.

  Lemma objective_alike n s (p q : gssco Q C D) xs x0 alpha inverted h : agree n p q -> g_tend p = g_tend q -> g_tend p <= n ->
    objective_o merge s (gssco_problem valQ vmerge outside p) xs x0 alpha inverted h =
    objective_o merge s (gssco_problem valQ vmerge outside q) xs x0 alpha inverted h.
  Proof.
    intros HA Ht Hn. pose proof HA as (A & B & E & F). unfold objective_o. f_equal. apply omap_ext. intros u Hu. apply zrange_In in Hu.
    unfold step_cost_o. cbn [gssco_problem op_tend op_hit op_move]. rewrite Ht. unfold gssco_move. rewrite E.
    destruct (g_tend q <? u) eqn:EU; [reflexivity|]. apply Z.ltb_ge in EU. rewrite (agree_hit valQ vmerge outside n p q u _ HA) by lia. reflexivity.
  Qed.

  (** *** Horizon control *)
  Section Horizon.
    Variable sched : list Q -> split.
    Notation mini := (window_minimize nlopt).

    Lemma hc_next_alike k (p q : gssco Q C D) w t prev : g_tend p = g_tend q -> agree (g_tend p + w) p q ->
      hc_next vmerge merge outside sched mini k p w t prev = hc_next vmerge merge outside sched mini k q w t prev.
    Proof.
      intros Ht HA. pose proof HA as (A & B & E & F). unfold hc_next. destruct (_ && _) eqn:EK; [|reflexivity].
      apply andb_true_iff in EK as [E1 E2]. apply Z.leb_le in E1, E2.
      unfold hc_bounds. rewrite A, B. cbv zeta. apply obind_ext; [reflexivity|]. intros bs. apply obind_ext; [|reflexivity].
      apply window_minimize_ext; [exact HN| |constructor]. intros raw. unfold hc_objective. rewrite A. apply obind_ext; [reflexivity|]. intros xs.
      cbv zeta. cbn [ssco_reset g_tend]. rewrite Ht. apply obind_ext; [|reflexivity].
      eapply objective_alike; [apply reset_alike; exact HA|cbn [ssco_reset g_tend]; congruence|cbn [ssco_reset g_tend]; lia].
    Qed.

    Lemma rhc_causal : causal (rhc_alg vmerge merge outside sched mini).
    Proof.
      intros p q w t xs m Ht HA. pose proof HA as (A & _). unfold rhc_alg, rhc. cbn [on_p on_w]. rewrite A.
      rewrite (hc_next_alike _ p q w t _ Ht HA). reflexivity.
    Qed.
    Lemma afhc_causal : causal (afhc_alg vmerge merge outside sched mini).
    Proof.
      intros p q w t xs m Ht HA. pose proof HA as (A & _). unfold afhc_alg, afhc. cbn [on_p on_w]. rewrite A. apply obind_ext; [|reflexivity].
      apply obind_ext; [|reflexivity]. generalize (gzero valQ (g_d q)) (@nil (list Q)). induction (zrange 1 (w + 1)) as [|k ks IH]; intros x prev; [reflexivity|].
      cbn [afhc_loop]. apply obind_ext; [reflexivity|]. intros x1. rewrite (hc_next_alike _ p q w t _ Ht HA). apply obind_ext; [reflexivity|]. intros r. apply IH.
    Qed.
    Lemma afhc_memory_causal : causal_memory (@afhc_dflt C D).
    Proof. intros p q w Ht (A & _). unfold afhc_dflt, afhc_default. cbn [on_p on_w]. rewrite A. reflexivity. Qed.
  End Horizon.

  (** *** Lazy capacity provisioning *)
  Section Lazy.
    Variable s : split.

    Lemma find_bound_f_alike (p q : gssco Q C D) alpha inverted w t_end t_start x_start : g_tend p = g_tend q -> agree (g_tend p + w) p q ->
      find_bound_f vmerge merge outside s (point_minimize nlopt) p alpha inverted w t_end t_start x_start =
      find_bound_f vmerge merge outside s (point_minimize nlopt) q alpha inverted w t_end t_start x_start.
    Proof.
      intros Ht HA. pose proof HA as (A & B & E & F). unfold find_bound_f. rewrite Ht, A. destruct (_ <? _); [reflexivity|]. destruct (negb _); [reflexivity|].
      destruct (_ <=? 0); [reflexivity|]. cbv zeta. unfold gssco_extend. cbn [ssco_reset g_tend g_bounds g_d g_switching g_cost]. rewrite B.
      apply obind_ext; [reflexivity|]. intros m. apply obind_ext; [|reflexivity]. apply point_minimize_ext; [exact HN|]. intros xs. unfold bound_objective.
      apply obind_ext; [|reflexivity]. pose proof (reset_alike _ p q t_start HA) as (A' & B' & E' & F'). cbn [ssco_reset g_tend g_bounds g_d g_switching g_cost] in *.
      apply (objective_alike (g_tend p + w - t_start)); cbn [g_tend]; [|congruence|lia]. repeat split; auto.
    Qed.

    Lemma lcp_fractional_causal : causal (lcp_fractional vmerge merge outside s (point_minimize nlopt)).
    Proof.
      intros p q w t xs m Ht HA. unfold lcp_fractional, lcp. cbn [on_p on_w bo_d bo_tend bo_w bo_lower bo_upper].
      pose proof HA as (A & _). rewrite A, Ht. destruct (negb _); [reflexivity|]. destruct (negb _); [reflexivity|].
      apply obind_ext; [|reflexivity]. apply obind_ext; [reflexivity|]. intros st. apply obind_ext; [reflexivity|]. intros i.
      unfold lower_bound_f, upper_bound_f. rewrite !(find_bound_f_alike p q) by assumption. reflexivity.
    Qed.
  End Lazy.

  (** *** The algorithms *)
  Variable s : split.
  Notation ops := (ssco_ops valQ merge vmerge outside s).

  Lemma rhc_blind sched : unforeseeing ops agree (rhc_alg vmerge merge outside sched (window_minimize nlopt)) (fun _ => tt).
  Proof. apply unforeseeing_causal; [apply rhc_causal|]. intros p q w _ _. reflexivity. Qed.
  Lemma afhc_blind sched : unforeseeing ops agree (afhc_alg vmerge merge outside sched (window_minimize nlopt)) (@afhc_dflt C D).
  Proof. apply unforeseeing_causal; [apply afhc_causal|apply afhc_memory_causal]. Qed.
  Lemma lcp_fractional_unforeseeing sched :
    unforeseeing ops agree (lcp_fractional vmerge merge outside sched (point_minimize nlopt)) (@lcp_no_bounds C D).
  Proof. apply unforeseeing_causal; [apply lcp_fractional_causal|]. intros p q w _ _. reflexivity. Qed.
End Window.

Lemma lcp_blind {C D} vmerge merge (outside : D) s :
  unforeseeing (ssco_ops valZ merge vmerge outside s) agree (lcp_ssco vmerge outside) (@lcp_memory C D).
Proof. apply unforeseeing_causal; [apply lcp_causal|apply lcp_memory_causal]. Qed.
