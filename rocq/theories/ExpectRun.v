(** Randomised lazy budgeting for SLO with a single type of servers: the schedule chosen if [i]
    slots are drawn, and its expected cost. *)
From Coq Require Import Reals Lra Lia Lqa Qreals.
From Verif Require Import NumLemmas GraphSearchSpec GraphSearchProofs GraphSearchCosts ObjectiveProofs
  CostSpec CostProofs LoadProofs LoadObjective BudgetSpec BudgetCover BudgetLanes BudgetProofs BudgetRun
  OfflineModel OfflineSpec OfflineProofs BalancedRatio SloRatioLane SloRatioRun ExpectLane ExpectStep.
From Verif Require Import ProblemModel CostModel.
Local Open Scope Z_scope.

(** Slots since the last use of lane [j] after the loads [loads]. *)
Definition gap_of (j : nat) (loads : list Z) : option nat :=
  fold_left (fun g l => next_gap (Z.of_nat j <? l) g) loads None.
Lemma gap_snoc j loads l : gap_of j (loads ++ [l]) = next_gap (Z.of_nat j <? l) (gap_of j loads).
Proof. unfold gap_of. rewrite fold_left_app. reflexivity. Qed.

(** The number of servers in use after the loads [loads] if [i] slots are drawn. *)
Definition drawn_servers (u : nat) (i : nat) (loads : list Z) : Z := zsum (map (fun j => active i (gap_of j loads)) (seq 0 u)).
Definition drawn_schedule (u i : nat) (loads : list Z) (n : nat) : list (list Z) :=
  map (fun k => [drawn_servers u i (firstn (S k) loads)]) (seq 0 n).

Lemma drawn_schedule_S u i loads n :
  drawn_schedule u i loads (S n) = drawn_schedule u i loads n ++ [[drawn_servers u i (firstn (S n) loads)]].
Proof. unfold drawn_schedule. rewrite seq_S, map_app. reflexivity. Qed.

Lemma firstn_next {A} (ls : list A) : forall n l, nth_error ls n = Some l -> firstn (S n) ls = firstn n ls ++ [l].
Proof.
  induction ls as [|a ls IH]; intros [|n] l H; try discriminate H.
  - injection H as ->. reflexivity.
  - change (a :: firstn (S n) ls = a :: (firstn n ls ++ [l])). f_equal. apply IH, H.
Qed.

Section Drawn.
  Variable minimize :
    (list Q -> outcome ext) -> list (Q * Q) -> list Q -> list (list Q -> outcome Q) -> option (list Q * ext).
  Variable hit : Z -> list Z -> cost dc_success dc_failure.
  Variable sched : Z -> Z -> vertice -> split.
  Variable s : split.
  Variable p : gslo Z.
  Hypothesis HP : slo_instance p.
  Hypothesis HR : solver_reports minimize.
  Hypothesis HE : evaluates minimize p hit.
  Hypothesis Hd : l_d p = 1.
  Hypothesis Hload : Forall (fun l => 0 <= l) (l_load p).
  Variables (u : Z) (beta c : Q).
  Hypothesis Eu : l_bounds p = [u].
  Hypothesis Eb : l_switching p = [beta].
  Hypothesis Ec : l_hitting p = [c].
  Notation T := (Z.of_nat (length (l_load p))).
  Notation U := (Z.to_nat u).

  Section Gamma.
    Variable gamma : Q.
    Hypothesis Hg : (0 <= gamma)%Q.
    Notation tau := (Qfloor (gamma * beta / c)).
    Notation I := (Z.to_nat tau).

    Lemma drawn_nonneg : 0 <= tau.
    Proof.
      pose proof (Hc0 p HP c Ec). pose proof (Hb0 p HP beta Eb). change 0 with (Qfloor 0). apply Qfloor_resp_le.
      apply Qle_shift_div_l; [assumption|]. pose proof (Qmult_le_0_compat _ _ Hg H0). Lqa.lra.
    Qed.
    Lemma idle_drawn q : q = 0 \/ q = 1 -> idle_slots p gamma true q = if q =? 0 then 0 else tau.
    Proof.
      intros [-> | ->]; [reflexivity|]. unfold idle_slots. rewrite Eb, Ec. reflexivity.
    Qed.

    Definition tracks (n : nat) (m : slo_memory) : Prop :=
      forall j, (j < U)%nat -> nth j (sm_lanes m) 0 = active I (gap_of j (firstn n (l_load p))) /\
        forall g, gap_of j (firstn n (l_load p)) = Some g -> (g <= Nat.pred I)%nat ->
          nth j (sm_horizons m) 0 = Z.of_nat n - Z.of_nat g + tau.

    Lemma drawn_run n : Z.of_nat n <= T ->
      exists m, slo_run minimize hit sched p gamma true n = Ok (drawn_schedule U I (l_load p) n, m) /\ tracks n m.
    Proof.
      assert (EN : zsum (l_bounds p) = u) by (rewrite Eu; cbn; lia). pose proof (Hu0 p HP u Eu) as Hu.
      induction n as [|n IH]; intros Hn.
      { exists (slo_default p gamma). split; [reflexivity|]. intros j Hj. cbn [firstn gap_of fold_left]. split; [|discriminate].
        unfold slo_default. cbn [sm_lanes]. rewrite nth_repeat. reflexivity. }
      destruct (IH ltac:(lia)) as (m0 & E0 & HT). clear IH.
      destruct (run_step minimize hit sched p HP HR HE gamma true (fun _ => Hg) n ltac:(lia))
        as (xs & m & x & m' & opt & E1 & E2 & L1 & L2 & Hx & HO & HS).
      assert (xs = drawn_schedule U I (l_load p) n) by congruence. assert (m0 = m) by congruence. subst xs m0.
      destruct (run_ok minimize hit sched p HP HR HE gamma true (fun _ => Hg) n ltac:(lia)) as (xs1 & m1 & E3 & R1).
      assert (m1 = m) by congruence. subst m1.
      pose proof (inv_lanes _ _ _ _ _ (run_inv _ _ _ _ _ _ _ _ _ R1)) as K1. pose proof (inv_hors _ _ _ _ _ (run_inv _ _ _ _ _ _ _ _ _ R1)) as K2.
      rewrite EN in *.
      destruct (run_ok minimize hit sched p HP HR HE gamma true (fun _ => Hg) (S n) ltac:(lia)) as (xs2 & m2 & E4 & R2).
      assert (m2 = m') by congruence. assert (Exs : xs2 = drawn_schedule U I (l_load p) n ++ [x]) by congruence. subst m2.
      pose proof (run_feasible _ _ _ _ _ _ _ _ _ R2) as Fx. rewrite Exs in Fx. apply Forall_app in Fx as [_ Fx]. apply Forall_inv in Fx.
      destruct (load_at p Hload (Z.of_nat n + 1) ltac:(lia)) as (l & Hl & Hl0).
      destruct (optimal_now minimize hit p HP HR HE Hd Hload u beta c Eu Eb Ec (Z.of_nat n + 1) opt l ltac:(lia) Hl HO) as [Eopt Hlu].
      assert (Hli : nth_error (l_load p) n = Some l).
      { apply access_spec in Hl as [_ Hl]. replace (Z.to_nat (Z.of_nat n + 1 - 1)) with n in Hl by lia. exact Hl. }
      pose proof (firstn_next (l_load p) n l Hli) as EL. pose proof drawn_nonneg as Htau.
      assert (HT' : tracks (S n) m').
      { intros j Hj. rewrite EL, gap_snoc. destruct (HT j Hj) as [HA HH].
        destruct (nth_error_ex (sm_lanes m) j) as [a Ha]; [lia|]. destruct (nth_error_ex (sm_horizons m) j) as [b Hb]; [lia|].
        destruct (nth_error_ex (sm_lanes m') j) as [a' Ha']; [lia|]. destruct (nth_error_ex (sm_horizons m') j) as [b' Hb']; [lia|].
        specialize (HS j a b a' b' Ha Hb Ha' Hb'). cbv zeta in HS. rewrite Eopt in HS.
        assert (Eq : nth j (lanes_of 1 [l]) 0 = level l j).
        { cbn [lanes_of app]. unfold level. destruct (Z.ltb_spec (Z.of_nat j) l).
          - apply nth_error_nth. apply nth_error_repeat. lia.
          - apply nth_overflow. rewrite repeat_length. lia. }
        rewrite Eq in HS. assert (H01 : level l j = 0 \/ level l j = 1) by (unfold level; destruct (Z.ltb _ _); auto).
        rewrite idle_drawn in HS by exact H01. destruct HS as [S1 S2].
        rewrite (nth_error_nth _ _ _ Ha) in HA. rewrite (nth_error_nth _ _ _ Hb) in HH.
        rewrite (nth_error_nth _ _ _ Ha'), (nth_error_nth _ _ _ Hb').
        unfold level in S1, S2. destruct (Z.of_nat j <? l) eqn:EJ.
        - (* used *)
          cbn [next_gap Z.eqb] in *. assert (a' = 1 /\ b' = Z.of_nat n + 1 + tau) as [-> ->].
          { destruct (gap_of j (firstn n (l_load p))) as [g|] eqn:EG; cbn [active] in HA.
            - destruct (Nat.leb_spec g (Nat.pred I)) as [Hgi|Hgi]; [|destruct S1; lia].
              specialize (HH g eq_refl Hgi). destruct (Z_le_gt_dec b (Z.of_nat n + 1)); [destruct S1; lia|destruct S2; lia].
            - destruct S1; lia. }
          split; [reflexivity|]. intros g Eg _. injection Eg as <-. lia.
        - cbn [next_gap Z.eqb] in *. destruct (gap_of j (firstn n (l_load p))) as [g|] eqn:EG; cbn [option_map active] in *.
          + destruct (Nat.leb_spec g (Nat.pred I)) as [Hgi|Hgi].
            * specialize (HH g eq_refl Hgi). subst a. destruct (Nat.leb_spec (S g) (Nat.pred I)) as [Hgs|Hgs].
              -- destruct S2 as [S2 S3]; [lia|lia|]. split; [exact S2|]. intros g' Eg _. injection Eg as <-. lia.
              -- destruct S1 as [S1 S3]; [lia|]. split; [exact S1|]. intros g' Eg Hg'. injection Eg as <-. lia.
            * replace (S g <=? Nat.pred I)%nat with false by (symmetry; apply Nat.leb_gt; lia). split.
              -- destruct (Z_le_gt_dec b (Z.of_nat n + 1)); [destruct S1; lia|destruct S2; lia].
              -- intros g' Eg Hg'. injection Eg as <-. lia.
          + split; [|discriminate]. destruct (Z_le_gt_dec b (Z.of_nat n + 1)); [destruct S1; lia|destruct S2; lia]. }
      exists m'. split; [|exact HT']. rewrite E2, drawn_schedule_S. do 4 f_equal.
      destruct (config_single p u Eu x Fx) as (j & -> & Hj). f_equal. rewrite (Hx 0%nat j eq_refl). change (Z.of_nat 0 + 1) with 1.
      rewrite count_sum.
      - unfold drawn_servers. rewrite <- (map_nth_seq (sm_lanes m') 0). replace (length (sm_lanes m')) with U by lia.
        f_equal. apply map_ext_in. intros k Hk. apply in_seq in Hk. apply (HT' k). lia.
      - pose proof (inv_range _ _ _ _ _ (run_inv _ _ _ _ _ _ _ _ _ R2)) as F. rewrite Hd in F. exact F.
    Qed.
  End Gamma.

  (** *** Costs *)
  Notation C := (Q2R c).
  Notation B := (Q2R beta).

  Lemma load_fits t l : 1 <= t <= T -> access (l_load p) t = Some l -> 0 <= l <= u.
  Proof.
    intros Ht Hl. destruct (load_at p Hload t Ht) as (l' & Hl' & H0). assert (l' = l) by congruence. subst l'. split; [exact H0|].
    pose proof (Hu0 p HP u Eu) as Hu. pose proof (proj2 HE t Ht) as HF. rewrite Eu in HF.
    pose proof (hit_serve minimize hit p HP HR HE Hd Hload u c Eu Ec t [u] Ht (single_config p u Eu u ltac:(lia))) as HS.
    apply (is_fin_eeq _ _ HS) in HF. unfold serve in HF. rewrite Hl in HF. cbn [zsum fold_right] in HF. rewrite Z.add_0_r in HF.
    destruct (Z.leb_spec l u); [assumption|contradiction].
  Qed.

  Lemma R_inject z : Q2R (inject_Z z) = IZR z.
  Proof. unfold Q2R. cbn. Lra.lra. Qed.
  Lemma R_sum {A} (f : A -> Q) l : Q2R (Qsum (map f l)) = rsum (map (fun a => Q2R (f a)) l).
  Proof.
    induction l as [|a l IH]; [unfold Q2R; cbn; Lra.lra|]. cbn [map Qsum rsum fold_right]. unfold rsum in IH. rewrite <- IH. apply Q2R_plus.
  Qed.
  Lemma R_pay a b : Q2R (pay c beta a b) = other_pay C B a b.
  Proof. unfold pay, other_pay. rewrite Q2R_plus, !Q2R_mult, !R_inject. reflexivity. Qed.

  Definition slot_spent (i k : nat) : R :=
    rsum (map (fun j => lane_pay C B (gap_of j (firstn k (l_load p))) (gap_of j (firstn (S k) (l_load p))) i) (seq 0 U)).
  Definition spent (n i : nat) : R := rsum (map (slot_spent i) (seq 0 n)).
  Lemma spent_S n i : spent (S n) i = (spent n i + slot_spent i n)%R.
  Proof. unfold spent. rewrite seq_S, map_app, rsum_app. cbn. Lra.lra. Qed.

  Lemma zsum_le {A} (f g : A -> Z) l : (forall a, In a l -> f a <= g a) -> zsum (map f l) <= zsum (map g l).
  Proof.
    induction l as [|a l IH]; intros H; [cbn; lia|]. cbn [map zsum fold_right]. pose proof (H a (or_introl eq_refl)).
    specialize (IH (fun b Hb => H b (or_intror Hb))). unfold zsum in IH. lia.
  Qed.
  Lemma zsum_const {A} k (l : list A) : zsum (map (fun _ => k) l) = k * Z.of_nat (length l).
  Proof. induction l as [|a l IH]; [cbn; lia|]. cbn [map zsum fold_right length]. unfold zsum in IH. rewrite IH. lia. Qed.

  Lemma drawn_range i loads : 0 <= drawn_servers U i loads <= u.
  Proof.
    pose proof (Hu0 p HP u Eu). unfold drawn_servers. split.
    - transitivity (zsum (map (fun _ : nat => 0) (seq 0 U))); [rewrite zsum_const; lia|]. apply zsum_le. intros j _. destruct (active_01 i (gap_of j loads)); lia.
    - transitivity (zsum (map (fun _ : nat => 1) (seq 0 U))); [|rewrite zsum_const, seq_length; lia]. apply zsum_le. intros j _. destruct (active_01 i (gap_of j loads)); lia.
  Qed.
  Lemma drawn_covers i loads l : 0 <= l <= u -> l <= drawn_servers U i (loads ++ [l]).
  Proof.
    intros Hl. rewrite <- (sum_level U l) at 1 by lia. unfold drawn_servers. apply zsum_le. intros j _. rewrite gap_snoc. unfold level, next_gap.
    destruct (Z.of_nat j <? l); [cbn; lia|]. destruct (active_01 i (option_map S (gap_of j loads))); lia.
  Qed.
  Lemma drawn_feasible i n : feasible_schedule (Z.of_nat n) (l_bounds p) (drawn_schedule U i (l_load p) n).
  Proof.
    unfold drawn_schedule. split; [rewrite map_length, seq_length; reflexivity|]. apply Forall_forall. intros x Hx. apply in_map_iff in Hx as (k & <- & _).
    apply single_config with (u := u); [exact Eu|]. apply drawn_range.
  Qed.
  Lemma drawn_last i n : servers (drawn_schedule U i (l_load p) n) = drawn_servers U i (firstn n (l_load p)).
  Proof.
    unfold servers. destruct n as [|n].
    - cbn [drawn_schedule map seq last zsum fold_right firstn]. unfold drawn_servers. rewrite (map_ext _ (fun _ => 0)) by reflexivity. rewrite zsum_const. lia.
    - rewrite drawn_schedule_S, last_last. cbn [zsum fold_right]. lia.
  Qed.

  Lemma drawn_value i n : Z.of_nat n <= T ->
    exists q, eeq (SloRatioRun.value p beta c (drawn_schedule U i (l_load p) n)) (Fin q) /\ (Q2R q <= spent n i)%R.
  Proof.
    induction n as [|n IH]; intros Hn.
    - exists 0%Q. split; [reflexivity|]. unfold Q2R, spent. cbn. Lra.lra.
    - destruct (IH ltac:(lia)) as (q & Eq & Hq). destruct (load_at p Hload (Z.of_nat n + 1) ltac:(lia)) as (l & Hl & _).
      pose proof (load_fits (Z.of_nat n + 1) l ltac:(lia) Hl) as Hlu.
      assert (Hli : nth_error (l_load p) n = Some l).
      { apply access_spec in Hl as [_ Hl]. replace (Z.to_nat (Z.of_nat n + 1 - 1)) with n in Hl by lia. exact Hl. }
      pose proof (drawn_feasible i n) as [_ Fn]. pose proof (drawn_feasible i (S n)) as [_ Fs]. rewrite drawn_schedule_S in *.
      apply Forall_app in Fs as [_ Fs]. apply Forall_inv in Fs.
      set (y := drawn_servers U i (firstn (S n) (l_load p))) in *.
      assert (EL : length (drawn_schedule U i (l_load p) n) = n) by (unfold drawn_schedule; rewrite map_length, seq_length; reflexivity).
      assert (Ez : zsum [y] = y) by (cbn; lia).
      pose proof (value_snoc p HP u beta c Eu (drawn_schedule U i (l_load p) n) [y] l) as EV.
      rewrite EL in EV. replace (1 + Z.of_nat n) with (Z.of_nat n + 1) in EV by lia. rewrite Ez in EV.
      specialize (EV Hl Fn Fs). rewrite drawn_last in EV.
      assert (Hly : l <= y) by (unfold y; rewrite (firstn_next _ _ _ Hli); apply drawn_covers, Hlu). specialize (EV Hly).
      destruct (SloRatioRun.value p beta c (drawn_schedule U i (l_load p) n)) as [q0|]; [|contradiction]. cbn [eeq] in Eq. cbn [eadd] in EV.
      exists (q0 + pay c beta (drawn_servers U i (firstn n (l_load p))) y)%Q. split; [exact EV|].
      rewrite Q2R_plus, spent_S. apply Rplus_le_compat; [rewrite (Qeq_eqR _ _ Eq); exact Hq|].
      unfold slot_spent. rewrite (rsum_ext _ (fun j => Q2R (pay c beta (active i (gap_of j (firstn n (l_load p)))) (active i (gap_of j (firstn (S n) (l_load p))))))).
      + rewrite <- R_sum. apply Qle_Rle. rewrite lanes_pay. unfold pay. unfold y, drawn_servers. apply Qplus_le_r. rewrite !(Qmult_comm beta).
        apply Qmult_le_compat_r; [|apply (Hb0 p HP beta Eb)]. rewrite <- Zle_Qle. apply sum_up.
      + intros j _. rewrite R_pay. reflexivity.
  Qed.

  (** *** Against another schedule *)
  Notation M := (Z.to_nat (Qfloor (beta / c))).
  Lemma C_pos : (0 < C)%R.
  Proof. pose proof (Qlt_Rlt _ _ (Hc0 p HP c Ec)) as H. unfold Q2R at 1 in H. cbn in H. Lra.lra. Qed.
  Lemma B_nonneg : (0 <= B)%R.
  Proof. pose proof (Qle_Rle _ _ (Hb0 p HP beta Eb)) as H. unfold Q2R at 1 in H. cbn in H. Lra.lra. Qed.
  Lemma M_INR : INR M = Q2R (inject_Z (Qfloor (beta / c))).
  Proof. rewrite R_inject, INR_IZR_INZ, Z2Nat.id; [reflexivity|]. apply (tau_nonneg p HP beta c Eb Ec). Qed.
  Lemma M_lo : (INR M * C <= B)%R.
  Proof. rewrite M_INR, <- Q2R_mult. apply Qle_Rle. rewrite Qmult_comm. apply (tau_lo p HP beta c Ec). Qed.
  Lemma M_hi : (B < (INR M + 1) * C)%R.
  Proof.
    rewrite M_INR. pose proof (Qlt_Rlt _ _ (tau_hi p HP beta c Ec)) as H. rewrite Q2R_mult, R_inject, plus_IZR in H. rewrite R_inject. Lra.lra.
  Qed.

  Definition rest (n : nat) (y : Z) : R := rsum (map (fun j => saved C B M (gap_of j (firstn n (l_load p))) (level y j)) (seq 0 U)).

  Lemma rest_nonneg n y : (0 <= rest n y)%R.
  Proof.
    unfold rest. rewrite <- (rsum_zero (seq 0 U)). apply rsum_le. intros j _. apply saved_nonneg; [apply C_pos|apply B_nonneg|apply M_lo].
  Qed.

  Lemma expected_within n : Z.of_nat n <= T -> forall ys q, feasible_schedule (Z.of_nat n) (l_bounds p) ys -> eeq (SloRatioRun.value p beta c ys) (Fin q) ->
    (expected C B M (spent n) + rest n (servers ys) <= ratio * Q2R q)%R.
  Proof.
    induction n as [|n IH]; intros Hn ys q [HLy HFy] Eq.
    - destruct ys; [|simpl in HLy; lia]. cbn [SloRatioRun.value total_cost eeq] in Eq. rewrite <- (Qeq_eqR _ _ Eq).
      rewrite (expected_ext _ _ _ _ (fun _ => 0%R)) by reflexivity. rewrite (expected_const C B M).
      unfold rest. rewrite (rsum_ext _ (fun _ => 0%R)).
      + rewrite rsum_zero. unfold Q2R. cbn. Lra.lra.
      + intros j _. cbn [servers last zsum fold_right firstn gap_of fold_left saved]. unfold level. destruct (Z.ltb_spec (Z.of_nat j) (0 + 0)); [lia|reflexivity].
    - destruct (exists_last (l := ys)) as (ys' & y & ->). { intros ->. simpl in HLy. lia. }
      rewrite app_length in HLy. simpl in HLy. apply Forall_app in HFy as [HFy Hy]. apply Forall_inv in Hy.
      destruct (config_single p u Eu y Hy) as (k & -> & Hk).
      destruct (load_at p Hload (Z.of_nat n + 1) ltac:(lia)) as (l & Hl & _). pose proof (load_fits (Z.of_nat n + 1) l ltac:(lia) Hl) as Hlu.
      assert (Hli : nth_error (l_load p) n = Some l).
      { apply access_spec in Hl as [_ Hl]. replace (Z.to_nat (Z.of_nat n + 1 - 1)) with n in Hl by lia. exact Hl. }
      assert (HLy' : Z.of_nat (length ys') = Z.of_nat n) by lia.
      assert (Hly : access (l_load p) (1 + Z.of_nat (length ys')) = Some l) by (rewrite HLy', Z.add_comm; exact Hl).
      assert (Ek : zsum [k] = k) by (cbn; lia).
      destruct (Z_lt_le_dec k l) as [Hkl|Hkl].
      { exfalso. unfold SloRatioRun.value in Eq. rewrite total_cost_snoc in Eq. unfold serve at 2 in Eq. rewrite Hly, Ek in Eq. replace (l <=? k) with false in Eq by lia.
        destruct (total_cost _ _ _ _ _ _); exact Eq. }
      pose proof (value_snoc p HP u beta c Eu ys' [k] l Hly HFy Hy ltac:(lia)) as EY. rewrite Ek in EY. rewrite EY in Eq.
      destruct (SloRatioRun.value p beta c ys') as [q'|] eqn:EV; [|contradiction]. cbn [eadd eeq] in Eq.
      specialize (IH ltac:(lia) ys' q' (conj HLy' HFy)). rewrite EV in IH. specialize (IH (Qeq_refl _)).
      rewrite <- (Qeq_eqR _ _ Eq), Q2R_plus, R_pay. unfold servers at 1. rewrite last_last, Ek.
      destruct (servers_range p HP u Eu ys' HFy) as [Hsy _].
      rewrite (expected_ext _ _ _ _ (fun i => spent n i + slot_spent i n)%R) by (intros; apply spent_S). rewrite expected_plus.
      assert (ES : expected C B M (fun i => slot_spent i n) =
        rsum (map (fun j => expected C B M (lane_pay C B (gap_of j (firstn n (l_load p))) (gap_of j (firstn (S n) (l_load p))))) (seq 0 U)))
        by apply (expected_sum C B M (fun j i => lane_pay C B (gap_of j (firstn n (l_load p))) (gap_of j (firstn (S n) (l_load p))) i)).
      assert (EO : other_pay C B (servers ys') k = rsum (map (fun j => other_pay C B (level (servers ys') j) (level k j)) (seq 0 U))).
      { rewrite <- R_pay. rewrite (rsum_ext _ (fun j => Q2R (pay c beta (level (servers ys') j) (level k j)))) by (intros; rewrite R_pay; reflexivity).
        rewrite <- R_sum. apply Qeq_eqR. rewrite lanes_pay, sum_level, sum_up_level by lia. reflexivity. }
      assert (HL : (rsum (map (fun j => expected C B M (lane_pay C B (gap_of j (firstn n (l_load p))) (gap_of j (firstn (S n) (l_load p))))
                       + saved C B M (gap_of j (firstn (S n) (l_load p))) (level k j)) (seq 0 U))
                  <= rsum (map (fun j => saved C B M (gap_of j (firstn n (l_load p))) (level (servers ys') j)
                       + ratio * other_pay C B (level (servers ys') j) (level k j)) (seq 0 U)))%R).
      { apply rsum_le. intros j _. rewrite (firstn_next _ _ _ Hli), gap_snoc.
        apply lane_expected; [apply C_pos|apply B_nonneg|apply M_lo|apply M_hi| | |]; unfold level.
        - destruct (Z.ltb _ _); auto.
        - destruct (Z.ltb _ _); auto.
        - intros Hu. apply Z.ltb_lt in Hu. destruct (Z.ltb_spec (Z.of_nat j) k); [reflexivity|lia]. }
      rewrite !rsum_plus, rsum_scale in HL. unfold rest in *. rewrite ES, EO. Lra.lra.
  Qed.
End Drawn.
