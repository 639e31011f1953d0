(** Proofs about lazy budgeting for SLO: whole runs. *)
From Coq Require Import Lia Lqa.
From Verif Require Import NumLemmas CostModel ConvertObjective LoadProofs BudgetModel BudgetSpec BudgetCover BudgetLanes
  GraphSearchProofs BudgetProofs.
From Verif Require Import CostModel ProblemModel.
Local Open Scope Z_scope.

Lemma inside_feasible bounds x : feasible_config bounds x -> inside bounds x = true.
Proof.
  intros H. unfold inside. apply andb_true_iff. split.
  - induction H; simpl; auto.
  - induction H as [|u j bs xs Hj HF IH]; [reflexivity|]. cbn [combine forallb fst snd].
    rewrite IH, andb_true_r. apply andb_true_iff. split; apply Z.leb_le; lia.
Qed.

Lemma total_cost_restricted bounds f sw alpha xs : forall t prev, Forall (feasible_config bounds) xs ->
  total_cost (restricted bounds f) sw alpha t prev xs = total_cost f sw alpha t prev xs.
Proof.
  induction xs as [|x xs IH]; intros t prev H; [reflexivity|]. apply Forall_cons_iff in H as [Hx H].
  cbn [total_cost]. rewrite (IH _ _ H). unfold restricted at 1. rewrite (inside_feasible _ _ Hx). reflexivity.
Qed.

Lemma eadd_fin a b : is_fin (eadd a b) -> is_fin a /\ is_fin b.
Proof. destruct a, b; simpl; tauto. Qed.

(** A finite total cost has finite summands; here for the last slot. *)
Lemma total_cost_last_fin {X} f sw alpha (x : X) xs : forall t prev,
  is_fin (total_cost f sw alpha t prev (xs ++ [x])) -> is_fin (f (t + Z.of_nat (length xs)) x).
Proof.
  induction xs as [|y xs IH]; intros t prev H.
  - cbn [app total_cost] in H. apply eadd_fin in H as [H _]. apply eadd_fin in H as [H _].
    simpl. rewrite Z.add_0_r. exact H.
  - cbn [app total_cost] in H. apply eadd_fin in H as [_ H]. apply IH in H.
    replace (t + Z.of_nat (length (y :: xs))) with (t + 1 + Z.of_nat (length xs)) by (simpl length; lia). exact H.
Qed.

Lemma Forall2_sum_le bounds x : feasible_config bounds x -> zsum x <= zsum bounds.
Proof. induction 1; simpl; lia. Qed.

Lemma feasible_nonneg bounds x : feasible_config bounds x -> Forall (fun j => 0 <= j) x.
Proof. induction 1; constructor; [lia|assumption]. Qed.

Lemma feasible_length bounds x : feasible_config bounds x -> length x = length bounds.
Proof. induction 1; simpl; congruence. Qed.

Lemma feasible_from_nth bounds x : length x = length bounds ->
  (forall i u, nth_error bounds i = Some u -> exists j, nth_error x i = Some j /\ 0 <= j <= u) ->
  feasible_config bounds x.
Proof.
  revert x. induction bounds as [|u bs IH]; intros [|j x] HL H; try discriminate HL.
  - constructor.
  - constructor.
    + destruct (H 0%nat u eq_refl) as (j' & E & Hj). simpl in E. assert (j' = j) by congruence. subst. exact Hj.
    + apply IH; [simpl in HL; lia|]. intros i v Hv. exact (H (S i) v Hv).
Qed.

Lemma count_nonneg l k : 0 <= count l k.
Proof. unfold count. lia. Qed.

Lemma feasible_nth bounds x i u a : feasible_config bounds x -> nth_error bounds i = Some u ->
  nth_error x i = Some a -> 0 <= a <= u.
Proof.
  intros HF. revert i. induction HF as [|u' j bs xs Hj HF IH]; intros [|i] Hu Ha; try discriminate Hu.
  - simpl in *. assert (u' = u) by congruence. assert (j = a) by congruence. subst. exact Hj.
  - exact (IH i Hu Ha).
Qed.

Section Runs.
  Variable minimize :
    (list Q -> outcome ext) -> list (Q * Q) -> list Q -> list (list Q -> outcome Q) -> option (list Q * ext).
  Variable hit : Z -> list Z -> cost dc_success dc_failure.
  Variable sched : Z -> Z -> vertice -> split.
  Variable p : gslo Z.
  Hypothesis HP : slo_instance p.
  Hypothesis HR : solver_reports minimize.
  Hypothesis HE : evaluates minimize p hit.
  Variable gamma : Q.
  Variable randomized : bool.
  Hypothesis Hgamma : randomized = true -> (0 <= gamma)%Q.

  Notation d := (l_d p).
  Notation N := (zsum (l_bounds p)).
  Notation T := (Z.of_nat (length (l_load p))).
  Notation h := (idle_slots p gamma randomized).
  Notation search cache t := (optimal_graph_search OutsideDecisionSpace (sched t) (slo_search_problem minimize hit (slo_at p t)) cache false 1 None).

  Lemma searchable_at t : 1 <= t <= T -> searchable (slo_search_problem minimize hit (slo_at p t)).
  Proof.
    intros Ht. unfold searchable. simpl. pose proof (si_d p HP). pose proof (si_bounds p HP). pose proof (si_switching p HP).
    pose proof (si_bounds_pos p HP) as HB.
    split; [intros E; rewrite E in *; simpl in *; lia|]. split; [lia|]. split; [lia|].
    split; [exact (si_switching_pos p HP)|]. split; [lia|].
    split; [eapply Forall_impl; [|exact HB]; simpl; intros; lia|].
    split; [destruct (l_bounds p); [constructor|]; apply Forall_cons_iff in HB; apply HB|].
    intros u Hu. apply (proj2 HE). lia.
  Qed.

  Lemma search_at t : 1 <= t <= T -> exists path cache, search None t = Ok (path, cache) /\ optimal_slots p hit t (gp_xs path).
  Proof.
    intros Ht. destruct (optimal_graph_search_correct OutsideDecisionSpace (sched t) _ false 1 (searchable_at t Ht) ltac:(lra))
      as (path & cache & E & HF & Hfin & Hc & Hopt).
    exists path, cache. split; [exact E|]. unfold schedule_cost in *. simpl in HF, Hc, Hopt.
    rewrite (total_cost_restricted (l_bounds p)) in Hc by apply HF.
    split; [exact HF|]. split.
    - destruct (gp_cost path); [|destruct Hfin].
      destruct (total_cost _ _ _ _ _ _); [exact I|destruct Hc].
    - intros ys Hys. specialize (Hopt ys Hys). rewrite (total_cost_restricted (l_bounds p)) in Hopt by apply Hys.
      eapply ele_trans; [|exact Hopt].
      destruct (gp_cost path); [|destruct Hfin]. destruct (total_cost _ _ _ _ _ (gp_xs path)); [|destruct Hc].
      simpl in *. lra.
  Qed.

  (** The lanes of a feasible configuration. *)
  Lemma opt_ok_lanes x : feasible_config (l_bounds p) x -> opt_ok p (lanes_of 1 x ++ repeat 0 (Z.to_nat (N - zsum x))).
  Proof.
    intros HF. pose proof (feasible_nonneg _ _ HF) as Hx. pose proof (feasible_length _ _ HF) as HL.
    pose proof (Forall2_sum_le _ _ HF). pose proof (si_bounds p HP). pose proof (si_d p HP).
    split. { rewrite app_length, repeat_length, Nat2Z.inj_add, lanes_of_length by exact Hx. lia. }
    split; [apply lanes_sorted|]. split.
    - apply Forall_forall. intros j Hj. apply in_app_iff in Hj as [Hj|Hj].
      + apply lanes_of_values in Hj. lia.
      + apply repeat_spec in Hj. lia.
    - intros i u Hu. rewrite count_app, count_repeat. destruct (Z.eq_dec 0 (Z.of_nat i + 1)); [lia|].
      destruct (nth_error_ex x i) as [a Ha]; [apply nth_error_lt in Hu; lia|].
      replace (Z.of_nat i + 1) with (1 + Z.of_nat i) by lia. rewrite (lanes_of_count x 1 i a Hx Ha).
      pose proof (feasible_nth _ _ i u a HF Hu Ha). lia.
  Qed.

  (** What one slot does to the lanes, given an optimal schedule up to this slot. *)
  Definition lane_step (t : Z) (m : slo_memory) (opt : list (list Z)) (m' : slo_memory) : Prop :=
    forall j a b a' b', nth_error (sm_lanes m) j = Some a -> nth_error (sm_horizons m) j = Some b ->
      nth_error (sm_lanes m') j = Some a' -> nth_error (sm_horizons m') j = Some b' ->
      let c := nth j (lanes_of 1 (last opt [])) 0 in
      (a < c \/ b <= t -> a' = c /\ b' = t + h c) /\
      (c <= a -> t < b -> a' = a /\ b' = Z.max b (t + h c)).

  Record Run (n : nat) (xs : list (list Z)) (m : slo_memory) : Prop := {
    run_inv : Inv p gamma randomized (Z.of_nat n) m;
    run_len : length xs = n;
    run_cache : match n with
                | O => sm_cache m = None
                | S _ => exists path cache, search None (Z.of_nat n) = Ok (path, cache) /\ sm_cache m = Some cache
                end;
    run_feasible : Forall (feasible_config (l_bounds p)) xs;
    run_covers : forall i l x, nth_error (l_load p) i = Some l -> nth_error xs i = Some x -> l <= zsum x
  }.

  Lemma search_cached n m xs : Run n xs m -> search (sm_cache m) (Z.of_nat n + 1) = search None (Z.of_nat n + 1).
  Proof.
    intros H. pose proof (run_cache n xs m H) as HC. destruct n as [|n].
    - rewrite HC. reflexivity.
    - destruct HC as (path & cache & E & ->).
      eapply (optimal_resume OutsideDecisionSpace (sched (Z.of_nat (S n))) _ _
               (slo_search_problem minimize hit (slo_at p (Z.of_nat (S n))))); try reflexivity; [|exact E].
      simpl s_tend. lia.
  Qed.

  Lemma nth_pad (l : list Z) j n : nth j l 0 = nth j (l ++ repeat 0 n) 0.
  Proof.
    destruct (Nat.lt_ge_cases j (length l)) as [Hj|Hj].
    - rewrite app_nth1 by exact Hj. reflexivity.
    - rewrite app_nth2 by exact Hj. rewrite (nth_overflow l) by exact Hj.
      symmetry. destruct (nth_in_or_default (j - length l) (repeat 0 n) 0) as [HI|E]; [|exact E].
      apply repeat_spec in HI. exact HI.
  Qed.

  Lemma step_ok n xs m : Run n xs m -> Z.of_nat n < T ->
    exists x m' opt, slo_lb minimize hit sched 0 (slo_at p (Z.of_nat n + 1)) (Z.of_nat n + 1) m randomized = Ok (x, m') /\
      Run (S n) (xs ++ [x]) m' /\ collect_config d (sm_lanes m') = Ok x /\
      optimal_slots p hit (Z.of_nat n + 1) opt /\ lane_step (Z.of_nat n + 1) m opt m'.
  Proof.
    intros H Hn. set (t := Z.of_nat n + 1). pose proof (run_inv n xs m H) as HI.
    pose proof (si_d p HP) as Hd.
    destruct (search_at t ltac:(unfold t; lia)) as (path & cache & ES & HO).
    pose proof HO as [[OL OF] [Ofin _]].
    destruct (exists_last (l := gp_xs path)) as (pre & x & Ex). { intros E. rewrite E in OL. simpl in OL. unfold t in OL. lia. }
    assert (Hx : feasible_config (l_bounds p) x).
    { rewrite Forall_forall in OF. apply OF. rewrite Ex. apply in_or_app. right. left. reflexivity. }
    pose proof (feasible_nonneg _ _ Hx) as Hx0. pose proof (feasible_length _ _ Hx) as HxL.
    pose proof (si_bounds p HP) as HB. pose proof (Forall2_sum_le _ _ Hx) as HxS.
    set (o := lanes_of 1 x ++ repeat 0 (Z.to_nat (N - zsum x))).
    pose proof (opt_ok_lanes x Hx : opt_ok p o) as HOK.
    assert (EF : find_optimal_lanes minimize hit sched (sm_cache m) (slo_at p t) N = Ok (o, cache)).
    { unfold find_optimal_lanes. simpl l_tend. simpl l_d. pose proof (search_cached n m xs H) as EC. fold t in EC.
      rewrite EC, ES. cbn [obind fst snd].
      assert (EA : at_index (gp_xs path) (Z.of_nat (length (gp_xs path)) - 1) = Ok x).
      { apply at_index_Some. rewrite Ex, app_length. simpl length. split; [lia|].
        rewrite nth_error_app2 by lia. replace (_ - _)%nat with 0%nat by lia. reflexivity. }
      rewrite EA. cbn [obind].
      rewrite <- HB, <- HxL. rewrite (build_lanes_spec x N Hx0 HxS). reflexivity. }
    destruct (update_ok p HP gamma randomized (Z.of_nat n) t m o HI HOK) as (new & EN & HU).
    set (m' := mkSM (map fst new) (map snd new) gamma (Some cache)).
    pose proof (Inv_step p HP gamma randomized Hgamma (Z.of_nat n) m o new (Some cache) HI HOK HU) as HI'.
    fold m' in HI'. fold t in HI'.
    destruct (collect_config_spec d (sm_lanes m') ltac:(lia) (inv_range _ _ _ _ _ HI')) as (c & EC & CL & CN).
    exists c, m', (gp_xs path). split.
    { unfold slo_lb. cbn [Z.eqb negb]. simpl l_bounds. simpl l_d. rewrite EF. cbn [obind fst snd].
      rewrite EN. cbn [obind]. rewrite (descending_true (map snd new)) by exact (inv_hors_sorted _ _ _ _ _ HI').
      cbn [negb]. change (map fst new) with (sm_lanes m'). rewrite EC. cbn [obind].
      rewrite (inv_gamma _ _ _ _ _ HI). reflexivity. }
    assert (FC : feasible_config (l_bounds p) c).
    { apply feasible_from_nth; [lia|]. intros i u Hu. exists (count (sm_lanes m') (Z.of_nat i + 1)).
      split; [apply CN; apply nth_error_lt in Hu; lia|]. split; [apply count_nonneg|].
      exact (Inv_counts p HP gamma randomized t m' i u HI' Hu). }
    split.
    { split.
      - rewrite Nat2Z.inj_succ. exact HI'.
      - rewrite app_length, (run_len n xs m H). simpl. lia.
      - exists path, cache. rewrite Nat2Z.inj_succ. split; [exact ES|reflexivity].
      - apply Forall_app. split; [exact (run_feasible n xs m H)|]. constructor; [exact FC|constructor].
      - intros i l y Hl Hy. destruct (Nat.lt_ge_cases i (length xs)) as [Hi|Hi].
        + rewrite nth_error_app1 in Hy by exact Hi. exact (run_covers n xs m H i l y Hl Hy).
        + pose proof (run_len n xs m H) as RL. pose proof (nth_error_lt _ _ _ Hy) as Hlt. rewrite app_length in Hlt. simpl in Hlt.
          assert (i = n) by lia. subst i. rewrite nth_error_app2 in Hy by lia. rewrite RL, Nat.sub_diag in Hy.
          simpl in Hy. assert (c = y) by congruence. subst y.
          (* the optimum covers the load *)
          rewrite Ex in Ofin. apply total_cost_last_fin in Ofin.
          assert (Et : 1 + Z.of_nat (length pre) = t). { rewrite Ex, app_length in OL. simpl in OL. lia. }
          rewrite Et in Ofin.
          assert (Hcov : l <= zsum x).
          { destruct (proj1 HE t x ltac:(unfold t; lia) Hx) as (ci & Hci & Eci).
            eapply (image_cost_covers minimize p t x l ci); try assumption.
            - unfold t. lia.
            - lia.
            - unfold access, t. replace (Z.to_nat (Z.of_nat n + 1 - 1)) with n by lia. rewrite Hl.
              destruct (1 <=? Z.of_nat n + 1) eqn:E1; [|apply Z.leb_gt in E1; lia].
              destruct (Z.of_nat n + 1 <=? T) eqn:E2; [|apply Z.leb_gt in E2; lia]. reflexivity.
            - exact (eeq_fin _ _ Eci Ofin). }
          rewrite (collect_total d (sm_lanes m') c ltac:(lia) (inv_range _ _ _ _ _ HI') EC).
          eapply Z.le_trans; [exact Hcov|]. rewrite <- (lanes_positives x (Z.to_nat (N - zsum x)) Hx0). fold o.
          destruct HU as [U1 U2]. apply positives_le.
          { unfold m'. simpl. rewrite map_length. destruct HOK as [HOK _]. lia. }
          intros j y z Hj Hz. unfold m' in Hz. simpl in Hz. apply nth_error_map_fst in Hz as [hz Hz].
          destruct (updated_inv p gamma randomized (Z.of_nat n) m o new j z hz HI HOK (conj U1 U2) Hz) as (a & c' & b & Ha & Hc & Hb & E).
          assert (c' = y) by congruence. subst c'. pose proof (upd_ge p gamma randomized t a y b) as G. fold t in E. rewrite <- E in G. exact G. }
    split; [exact EC|]. split; [exact HO|].
    intros j a b a' b' Ha Hb Ha' Hb'. cbv zeta. rewrite Ex, last_last.
    rewrite (nth_pad (lanes_of 1 x) j (Z.to_nat (N - zsum x))). fold o.
    unfold m' in Ha', Hb'. simpl in Ha', Hb'. apply nth_error_map_fst in Ha' as [h1 Ha']. apply nth_error_map_snd in Hb' as [a1 Hb'].
    assert (a1 = a') by congruence. assert (h1 = b') by congruence. subst a1 h1.
    destruct (updated_inv p gamma randomized (Z.of_nat n) m o new j a' b' HI HOK HU Ha') as (a2 & c2 & b2 & Ha2 & Hc2 & Hb2 & E).
    assert (a2 = a) by congruence. assert (b2 = b) by congruence. subst a2 b2.
    rewrite (nth_error_nth _ _ _ Hc2). fold t in E.
    destruct (upd_cases p gamma randomized t a c2 b) as [[C U]|[C U]]; rewrite U in E; split; intros; try lia;
      split; congruence.
  Qed.

  Lemma slo_steps_app : forall n k xs m,
    slo_steps minimize hit sched p randomized (n + k) xs m =
    obind (slo_steps minimize hit sched p randomized n xs m)
      (fun r => slo_steps minimize hit sched p randomized k (fst r) (snd r)).
  Proof.
    induction n as [|n IH]; intros k xs m; [reflexivity|]. simpl.
    destruct (slo_lb _ _ _ _ _ _ _ _) as [[x m']| |]; [|reflexivity|reflexivity]. cbn [obind fst snd]. apply IH.
  Qed.

  Lemma run_ok n : Z.of_nat n <= T -> exists xs m, slo_run minimize hit sched p gamma randomized n = Ok (xs, m) /\ Run n xs m.
  Proof.
    induction n as [|n IH]; intros Hn.
    - exists [], (slo_default p gamma). split; [reflexivity|]. split; try reflexivity.
      + apply Inv_init. exact HP.
      + constructor.
      + intros [|i] l x _ Hx; discriminate Hx.
    - destruct IH as (xs & m & E & H); [lia|]. destruct (step_ok n xs m H ltac:(lia)) as (x & m' & opt & ES & H' & _).
      exists (xs ++ [x]), m'. split; [|exact H']. unfold slo_run in *. rewrite <- Nat.add_1_r, slo_steps_app, E.
      cbn [obind fst snd slo_steps]. rewrite (run_len n xs m H), ES. reflexivity.
  Qed.

  (** C27. *)
  Lemma run_feasible_covers n : Z.of_nat n <= T ->
    exists xs m, slo_run minimize hit sched p gamma randomized n = Ok (xs, m) /\
      feasible_schedule (Z.of_nat n) (l_bounds p) xs /\
      forall i l x, nth_error (l_load p) i = Some l -> nth_error xs i = Some x -> l <= zsum x.
  Proof.
    intros Hn. destruct (run_ok n Hn) as (xs & m & E & H). exists xs, m. split; [exact E|]. split; [|exact (run_covers n xs m H)].
    split; [f_equal; exact (run_len n xs m H)|exact (run_feasible n xs m H)].
  Qed.

  (** C29: one slot. *)
  Lemma run_step n : Z.of_nat n < T ->
    exists xs m x m' opt, slo_run minimize hit sched p gamma randomized n = Ok (xs, m) /\
      slo_run minimize hit sched p gamma randomized (S n) = Ok (xs ++ [x], m') /\
      Z.of_nat (length (sm_lanes m')) = N /\ Z.of_nat (length (sm_horizons m')) = N /\
      (forall k j, nth_error x k = Some j -> j = count (sm_lanes m') (Z.of_nat k + 1)) /\
      optimal_slots p hit (Z.of_nat n + 1) opt /\ lane_step (Z.of_nat n + 1) m opt m'.
  Proof.
    intros Hn. destruct (run_ok n ltac:(lia)) as (xs & m & E & H). destruct (step_ok n xs m H Hn) as (x & m' & opt & ES & H' & EC & HO & HL).
    exists xs, m, x, m', opt. split; [exact E|]. split.
    { unfold slo_run in *. rewrite <- Nat.add_1_r, slo_steps_app, E.
      cbn [obind fst snd slo_steps]. rewrite (run_len n xs m H), ES. reflexivity. }
    pose proof (run_inv _ _ _ H') as HI. split; [apply HI|]. split; [apply HI|].
    split; [|split; assumption]. intros k j Hj. pose proof (si_d p HP).
    destruct (collect_config_spec d (sm_lanes m') ltac:(lia) (inv_range _ _ _ _ _ HI)) as (c & EC' & CL & CN).
    assert (c = x) by congruence. subst c. pose proof (nth_error_lt _ _ _ Hj) as Hlt. specialize (CN k Hlt). congruence.
  Qed.

  (** C29: a lane is not powered down before its horizon. *)
  Lemma run_keeps k : forall n xs m xs' m' j a b a' b', Z.of_nat (n + k) <= T ->
    slo_run minimize hit sched p gamma randomized n = Ok (xs, m) ->
    slo_run minimize hit sched p gamma randomized (n + k) = Ok (xs', m') ->
    nth_error (sm_lanes m) j = Some a -> nth_error (sm_horizons m) j = Some b ->
    nth_error (sm_lanes m') j = Some a' -> nth_error (sm_horizons m') j = Some b' -> Z.of_nat (n + k) < b ->
    a <= a' /\ b <= b'.
  Proof.
    induction k as [|k IH]; intros n xs m xs' m' j a b a' b' Hn E E' Ha Hb Ha' Hb' Hlt.
    - rewrite Nat.add_0_r in *. assert (m' = m) by congruence. subst m'. assert (a' = a) by congruence.
      assert (b' = b) by congruence. lia.
    - destruct (run_step (n + k) ltac:(lia)) as (xs1 & m1 & x & m2 & opt & E1 & E2 & L1 & L2 & _ & HO & HS).
      rewrite Nat.add_succ_r in E'. assert (m2 = m') by congruence. subst m2.
      destruct (run_ok (n + k) ltac:(lia)) as (xs3 & m3 & E3 & H3).
      assert (m3 = m1) by congruence. assert (xs3 = xs1) by congruence. subst m3 xs3.
      pose proof (run_inv _ _ _ H3) as HI. pose proof (nth_error_lt _ _ _ Ha') as Hj.
      destruct (nth_error_ex (sm_lanes m1) j) as [a1 Ha1]. { pose proof (inv_lanes _ _ _ _ _ HI). lia. }
      destruct (nth_error_ex (sm_horizons m1) j) as [b1 Hb1]. { pose proof (inv_hors _ _ _ _ _ HI). lia. }
      destruct (IH n xs m xs1 m1 j a b a1 b1 ltac:(lia) E E1 Ha Hb Ha1 Hb1 ltac:(lia)) as (Hle & Hle').
      specialize (HS j a1 b1 a' b' Ha1 Hb1 Ha' Hb'). cbv zeta in HS. destruct HS as [S1 S2].
      set (c := nth j (lanes_of 1 (last opt [])) 0) in *.
      destruct (Z_lt_le_dec a1 c) as [C|C].
      + destruct (S1 (or_introl C)) as [-> ->]. pose proof (inv_horizon _ _ _ _ _ HI j a1 b1 Ha1 Hb1) as HH.
        assert (0 <= a1). { pose proof (inv_range _ _ _ _ _ HI) as F. rewrite Forall_forall in F. apply F. eapply nth_error_In, Ha1. }
        assert (c <= d).
        { destruct HO as [[OL OF] _]. destruct (exists_last (l := opt)) as (pre & y & Ex).
          { intros Eo. rewrite Eo in OL. simpl in OL. lia. }
          assert (HF : feasible_config (l_bounds p) y).
          { rewrite Forall_forall in OF. apply OF. rewrite Ex. apply in_or_app. right. left. reflexivity. }
          unfold c in *. rewrite Ex, last_last in *.
          destruct (nth_in_or_default j (lanes_of 1 y) 0) as [HIn|E0]; [|lia].
          apply lanes_of_values in HIn. pose proof (feasible_length _ _ HF). pose proof (si_bounds p HP). lia. }
        pose proof (h_mono p HP gamma randomized Hgamma a1 c ltac:(lia) ltac:(lia)). lia.
      + destruct (S2 C ltac:(lia)) as [-> ->]. lia.
  Qed.
End Runs.
