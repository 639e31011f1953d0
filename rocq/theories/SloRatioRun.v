(** Runs of lazy budgeting for SLO with a single type of servers are 2-competitive. *)
From Coq Require Import Lia Lqa.
From Verif Require Import NumLemmas GraphSearchSpec GraphSearchProofs GraphSearchCosts ObjectiveProofs
  CostSpec CostProofs ConvertProofs ConvertObjective LoadProofs LoadObjective BudgetSpec BudgetCover BudgetLanes BudgetProofs BudgetRun
  OfflineModel OfflineSpec OfflineProofs OfflineLoads OfflineApprox OfflineEnd OfflineEndLoads BalancedRatio SloRatioLane.
From Verif Require Import ProblemModel CostModel.
Local Open Scope Z_scope.

Lemma single_list {A} (l : list A) : Z.of_nat (length l) = 1 -> exists a, l = [a].
Proof. destruct l as [|a [|b l]]; simpl; intros; try lia. eauto. Qed.

(** *** Sums over lanes *)
Definition level (y : Z) (j : nat) : Z := if Z.of_nat j <? y then 1 else 0.

Lemma zsum_snoc l a : zsum (l ++ [a]) = zsum l + a.
Proof. rewrite zsum_app. cbn. lia. Qed.

Lemma sum_level n : forall y, 0 <= y <= Z.of_nat n -> zsum (map (level y) (seq 0 n)) = y.
Proof.
  induction n as [|n IH]; intros y Hy; [simpl in *; lia|].
  rewrite seq_S, map_app. cbn [map]. rewrite zsum_snoc. cbn [Nat.add]. unfold level at 2.
  destruct (Z.ltb_spec (Z.of_nat n) y) as [H|H].
  - assert (y = Z.of_nat n + 1) by lia. subst y.
    rewrite (map_ext_in (level (Z.of_nat n + 1)) (level (Z.of_nat n))).
    + rewrite IH by lia. lia.
    + intros j Hj. apply in_seq in Hj. unfold level.
      destruct (Z.ltb_spec (Z.of_nat j) (Z.of_nat n + 1)), (Z.ltb_spec (Z.of_nat j) (Z.of_nat n)); lia.
  - rewrite IH by lia. lia.
Qed.

Lemma sum_up_level n : forall y y', 0 <= y <= Z.of_nat n -> 0 <= y' <= Z.of_nat n ->
  zsum (map (fun j => up (level y j) (level y' j)) (seq 0 n)) = up y y'.
Proof.
  intros y y' Hy Hy'. destruct (Z_le_gt_dec y' y) as [H|H].
  - rewrite (map_ext_in _ (fun _ => 0)).
    + unfold up. replace (Z.max 0 (y' - y)) with 0 by lia. clear. induction (seq 0 n); simpl; lia.
    + intros j _. unfold up, level. destruct (Z.ltb_spec (Z.of_nat j) y), (Z.ltb_spec (Z.of_nat j) y'); lia.
  - transitivity (zsum (map (level y') (seq 0 n)) - zsum (map (level y) (seq 0 n))).
    2:{ rewrite !sum_level by assumption. unfold up. lia. }
    clear - H. induction (seq 0 n) as [|j l IH]; [reflexivity|]. cbn [map zsum fold_right] in *.
    change (fold_right Z.add 0 (map (fun j => up (level y j) (level y' j)) l)) with (zsum (map (fun j => up (level y j) (level y' j)) l)).
    change (fold_right Z.add 0 (map (level y') l)) with (zsum (map (level y') l)).
    change (fold_right Z.add 0 (map (level y) l)) with (zsum (map (level y) l)).
    rewrite IH. unfold up, level. destruct (Z.ltb_spec (Z.of_nat j) y), (Z.ltb_spec (Z.of_nat j) y'); lia.
Qed.

Lemma sum_up {A} (f g : A -> Z) l : up (zsum (map f l)) (zsum (map g l)) <= zsum (map (fun j => up (f j) (g j)) l).
Proof. induction l as [|a l IH]; cbn; [lia|]. unfold zsum, up in *. lia. Qed.

Lemma inject_zsum l : (inject_Z (zsum l) == Qsum (map inject_Z l))%Q.
Proof. induction l as [|a l IH]; [reflexivity|]. cbn [zsum fold_right map Qsum]. rewrite inject_Z_plus. change (fold_right Z.add 0 l) with (zsum l). rewrite IH. reflexivity. Qed.

Lemma map_nth_seq {A} (l : list A) d : map (fun j => nth j l d) (seq 0 (length l)) = l.
Proof.
  induction l as [|a l IH]; [reflexivity|]. cbn [length seq map nth]. rewrite <- seq_shift, map_map. f_equal. exact IH.
Qed.

Lemma count_sum l : Forall (fun a => 0 <= a <= 1) l -> count l 1 = zsum l.
Proof.
  induction 1 as [|a l H HF IH]; [reflexivity|]. rewrite count_cons, IH. cbn [zsum fold_right].
  change (fold_right Z.add 0 l) with (zsum l). destruct (Z.eq_dec a 1); lia.
Qed.

(** *** Costs *)
Section Costs.
  Variables c beta : Q.

  Lemma lanes_pay {A} (f g : A -> Z) l :
    (Qsum (map (fun j => pay c beta (f j) (g j)) l) ==
     c * inject_Z (zsum (map g l)) + beta * inject_Z (zsum (map (fun j => up (f j) (g j)) l)))%Q.
  Proof.
    induction l as [|a l IH]; cbn [map Qsum zsum fold_right]; [change (inject_Z 0) with 0%Q; ring|].
    rewrite IH. unfold pay. rewrite !inject_Z_plus.
    change (fold_right Z.add 0 (map g l)) with (zsum (map g l)).
    change (fold_right Z.add 0 (map (fun j => up (f j) (g j)) l)) with (zsum (map (fun j => up (f j) (g j)) l)). ring.
  Qed.
End Costs.

Section Single.
  Variable minimize :
    (list Q -> outcome ext) -> list (Q * Q) -> list Q -> list (list Q -> outcome Q) -> option (list Q * ext).
  Variable hit : Z -> list Z -> cost dc_success dc_failure.
  Variable sched : Z -> Z -> vertice -> split.
  Variable s : split.
  Variable p : gslo Z.
  Hypothesis HP : slo_instance p.
  Hypothesis HR : solver_reports minimize.
  Hypothesis HE : evaluates minimize p hit.
  Hypothesis Hd : l_d p = 1.
  Hypothesis Hload : Forall (fun l => 0 <= l) (l_load p).
  Variable gamma : Q.

  Variables (u : Z) (beta c : Q).
  Hypothesis Eu : l_bounds p = [u].
  Hypothesis Eb : l_switching p = [beta].
  Hypothesis Ec : l_hitting p = [c].
  Notation T := (Z.of_nat (length (l_load p))).
  Notation tau := (Qfloor (beta / c)).

  Lemma Hc0 : (0 < c)%Q.
  Proof. pose proof (si_hitting_pos p HP) as F. rewrite Ec in F. exact (Forall_inv F). Qed.
  Lemma Hb0 : (0 <= beta)%Q.
  Proof. pose proof (si_switching_pos p HP) as F. rewrite Eb in F. exact (Forall_inv F). Qed.
  Lemma Hu0 : 0 < u.
  Proof. pose proof (si_bounds_pos p HP) as F. rewrite Eu in F. exact (Forall_inv F). Qed.

  Lemma tau_nonneg : 0 <= tau.
  Proof.
    pose proof Hc0. pose proof Hb0. change 0 with (Qfloor 0). apply Qfloor_resp_le.
    apply Qle_shift_div_l; lra.
  Qed.
  Lemma tau_lo : (c * inject_Z tau <= beta)%Q.
  Proof.
    pose proof Hc0 as H. pose proof (Qfloor_le (beta / c)) as F.
    apply (Qmult_le_l _ _ c H) in F. assert (E : (c * (beta / c) == beta)%Q) by (field; lra). lra.
  Qed.
  Lemma tau_hi : (beta < c * inject_Z (tau + 1))%Q.
  Proof.
    pose proof Hc0 as H. pose proof (Qlt_floor (beta / c)) as F.
    apply (Qmult_lt_l _ _ c H) in F. assert (E : (c * (beta / c) == beta)%Q) by (field; lra). lra.
  Qed.

  Lemma idle_single q : q = 0 \/ q = 1 -> idle_slots p gamma false q = if q =? 0 then 0 else tau.
  Proof.
    intros [-> | ->]; [reflexivity|]. unfold idle_slots. rewrite Eb, Ec. cbn [Z.eqb Z.sub Z.add Z.opp Z.pos_sub Z.to_nat nth].
    apply Qfloor_comp. rewrite Qmult_1_l. reflexivity.
  Qed.

  (** The cost of [x] servers in slot [t]. *)
  Definition serve (t : Z) (x : list Z) : ext :=
    match access (l_load p) t with
    | Some l => if l <=? zsum x then Fin (c * inject_Z (zsum x)) else Inf
    | None => Inf
    end.
  Definition value (xs : list (list Z)) : ext := total_cost serve (switching [beta] false) 1 1 [0] xs.

  Lemma load_at t : 1 <= t <= T -> exists l, access (l_load p) t = Some l /\ 0 <= l.
  Proof.
    intros Ht. destruct (access (l_load p) t) as [l|] eqn:E.
    - exists l. split; [reflexivity|]. rewrite Forall_forall in Hload. apply Hload.
      apply access_spec in E as [_ E]. eapply nth_error_In, E.
    - unfold access in E. destruct ((1 <=? t) && (t <=? T))%bool eqn:EB; [|lia]. apply nth_error_None in E. lia.
  Qed.

  Lemma config_single x : feasible_config (l_bounds p) x -> exists j, x = [j] /\ 0 <= j <= u.
  Proof.
    rewrite Eu. intros H. inversion H as [|? j ? r Hj Hr]; subst. inversion Hr; subst. exists j. split; [reflexivity|exact Hj].
  Qed.
  Lemma single_config j : 0 <= j <= u -> feasible_config (l_bounds p) [j].
  Proof. rewrite Eu. intros H. constructor; [exact H|constructor]. Qed.

  Lemma slo_hit_serve t x : 1 <= t <= T -> feasible_config (l_bounds p) x ->
    exists k, slo_hit valZ p t x = Ok k /\ eeq (c_cost k) (serve t x).
  Proof.
    intros Ht Hx. destruct (config_single x Hx) as (j & -> & Hj). destruct (load_at t Ht) as (l & Hl & Hl0).
    pose proof (si_hitting p HP) as Hh.
    rewrite (slo_value valZ p t [j] l ltac:(lia) Hh ltac:(simpl; lia) Hl). eexists. split; [reflexivity|].
    unfold serve. rewrite Hl, Ec, Hd. unfold config_total. cbn.
    rewrite Z.add_0_r. unfold Qltb. destruct (Qle_bool (inject_Z l) (inject_Z j + 0)) eqn:EQ; cbn [negb c_cost].
    - apply Qle_bool_iff in EQ. rewrite Qplus_0_r in EQ. rewrite <- Zle_Qle in EQ. replace (l <=? j) with true by lia.
      simpl. lra.
    - replace (l <=? j) with false; [exact I|]. symmetry. apply Z.leb_gt.
      destruct (Z_lt_le_dec j l) as [H|H]; [exact H|]. exfalso.
      assert (Qle_bool (inject_Z l) (inject_Z j + 0) = true).
      { apply Qle_bool_iff. rewrite Qplus_0_r, <- Zle_Qle. exact H. }
      congruence.
  Qed.

  Lemma hit_serve t x : 1 <= t <= T -> feasible_config (l_bounds p) x -> eeq (c_cost (hit t x)) (serve t x).
  Proof.
    intros Ht Hx. destruct (slo_hit_serve t x Ht Hx) as (k & Hk & Ek).
    destruct (config_single x Hx) as (j & -> & Hj). destruct (load_at t Ht) as (l & Hl & Hl0).
    destruct (proj1 HE t [j] Ht Hx) as (ci & Hh & Eci). eapply eeq_trans; [apply eeq_sym; exact Eci|].
    assert (Hx0 : Forall (fun j => 0 <= j) [j]) by (constructor; [lia|constructor]).
    destruct (c_cost ci) as [q|] eqn:EF.
    - destruct (image_finite minimize p t [j] l ci ltac:(lia) ltac:(lia) (si_hitting p HP) ltac:(simpl; lia) Hx0 HR Hl Hh)
        as (k' & Hk' & E & _); [rewrite EF; exact I|]. assert (k' = k) by congruence. subst k'.
      rewrite <- Ek, <- E, EF. apply eeq_refl.
    - unfold serve. rewrite Hl. destruct (Z.leb_spec l (zsum [j])) as [H|H]; [|apply eeq_refl]. exfalso.
      assert (is_fin (c_cost ci)).
      { apply (single_assignable minimize p t [j] ci l); auto; try (cbn [length]; lia).
        1: apply (si_hitting p HP).
        cbn in H |- *. rewrite Qplus_0_r, <- Zle_Qle. lia. }
      rewrite EF in *. contradiction.
  Qed.

  Lemma sw_single a b : (1 * switching [beta] false [a] [b] == beta * inject_Z (up a b))%Q.
  Proof. cbn [switching power_up]. unfold up. ring. Qed.

  (** The optimal schedule up to a slot ends with exactly the servers needed. *)
  Lemma optimal_now t opt l : 1 <= t <= T -> access (l_load p) t = Some l -> optimal_slots p hit t opt ->
    last opt [] = [l] /\ 0 <= l <= u.
  Proof.
    intros Ht Hl ((HL & HF) & Hfin & Hopt).
    destruct (exists_last (l := opt)) as (pre & x & ->). { intros ->. simpl in HL. lia. }
    rewrite last_last. rewrite app_length in HL. simpl in HL.
    apply Forall_app in HF as [HFp HFx]. apply Forall_inv in HFx as Hx.
    destruct (config_single x Hx) as (j & -> & Hj).
    destruct (load_at t Ht) as (l' & Hl' & Hl0). assert (l' = l) by congruence. subst l'.
    set (f := fun t0 x => c_cost (hit t0 x)) in *.
    set (sw := switching (l_switching p) false) in *.
    set (z := zero_config (l_d p)) in *.
    assert (Et : 1 + Z.of_nat (length pre) = t) by lia.
    pose proof (total_cost_snoc f sw 1 pre 1 z [j]) as E1. rewrite Et in E1.
    pose proof (total_cost_snoc f sw 1 pre 1 z [l]) as E2. rewrite Et in E2.
    assert (Hfin' := Hfin). apply (is_fin_eeq _ _ E1) in Hfin'. apply is_fin_eadd in Hfin' as [Fp Fx].
    apply is_fin_eadd in Fx as [Fx _]. unfold f in Fx.
    pose proof (hit_serve t [j] Ht Hx) as Hs. pose proof (is_fin_eeq _ _ Hs Fx) as Fs.
    unfold serve in Fs, Hs. rewrite Hl in Fs, Hs. cbn [zsum fold_right] in Fs, Hs. rewrite Z.add_0_r in Fs, Hs.
    destruct (Z.leb_spec l j) as [Hlj|Hlj]; [|contradiction].
    assert (Hlu : 0 <= l <= u) by lia. split; [|exact Hlu].
    assert (Hy : feasible_schedule t (l_bounds p) (pre ++ [[l]])).
    { split; [rewrite app_length; simpl; lia|]. apply Forall_app. split; [exact HFp|]. constructor; [|constructor].
      apply single_config. exact Hlu. }
    specialize (Hopt _ Hy). cbv zeta in Hopt. rewrite E1, E2 in Hopt.
    pose proof (hit_serve t [l] Ht (single_config l Hlu)) as Hs2. unfold serve in Hs2. rewrite Hl in Hs2.
    cbn [zsum fold_right] in Hs2. rewrite Z.add_0_r in Hs2. rewrite Z.leb_refl in Hs2.
    unfold f in Hopt. rewrite Hs, Hs2 in Hopt.
    destruct (total_cost _ _ _ _ _ pre) as [q|]; [|contradiction].
    assert (Hprev : exists w, last pre z = [w]).
    { destruct pre as [|y pre']; [exists 0; unfold z, zero_config; rewrite Hd; reflexivity|].
      destruct (exists_last (l := y :: pre')) as (pp & yy & Epp); [discriminate|]. rewrite Epp, last_last.
      rewrite Epp in HFp. apply Forall_app in HFp as [_ HFy]. apply Forall_inv in HFy.
      destruct (config_single yy HFy) as (w & -> & _). eauto. }
    destruct Hprev as (w & Ew). rewrite Ew in Hopt. unfold sw in Hopt. rewrite Eb in Hopt.
    cbn [eadd ele] in Hopt. rewrite !sw_single in Hopt.
    destruct (Z.eq_dec l j) as [->|Hne]; [reflexivity|]. exfalso.
    assert (Hup : (beta * inject_Z (up w l) <= beta * inject_Z (up w j))%Q).
    { pose proof Hb0. rewrite !(Qmult_comm beta). apply Qmult_le_compat_r; [|exact H]. rewrite <- Zle_Qle. unfold up. lia. }
    assert (Hcc : (c * inject_Z l < c * inject_Z j)%Q).
    { apply Qmult_lt_l; [apply Hc0|]. rewrite <- Zlt_Qlt. lia. }
    lra.
  Qed.

  (** Sum of the potentials of the lanes, if the other schedule has [y] servers. *)
  Definition reserve (t : Z) (m : slo_memory) (y : Z) : Q :=
    Qsum (map (fun j => potential c tau t (nth j (sm_lanes m) 0) (nth j (sm_horizons m) 0) (level y j)) (seq 0 (Z.to_nat u))).

  Definition servers (xs : list (list Z)) : Z := zsum (last xs [0]).

  Lemma servers_range xs : Forall (feasible_config (l_bounds p)) xs -> 0 <= servers xs <= u /\ last xs [0] = [servers xs].
  Proof.
    intros HF. pose proof Hu0. unfold servers. destruct xs as [|x0 xs'] eqn:Exs; [cbn; split; [lia|reflexivity]|].
    rewrite <- Exs in *. destruct (exists_last (l := xs)) as (pp & yy & Epp); [congruence|]. rewrite Epp, last_last.
    rewrite Epp in HF. apply Forall_app in HF as [_ HFy]. apply Forall_inv in HFy.
    destruct (config_single yy HFy) as (w & -> & Hw). cbn. rewrite Z.add_0_r. split; [exact Hw|reflexivity].
  Qed.

  Lemma value_snoc xs x l : access (l_load p) (1 + Z.of_nat (length xs)) = Some l ->
    Forall (feasible_config (l_bounds p)) xs -> feasible_config (l_bounds p) x -> l <= zsum x ->
    eeq (value (xs ++ [x])) (eadd (value xs) (Fin (pay c beta (servers xs) (zsum x)))).
  Proof.
    intros Hl HF Hx Hlx. unfold value. rewrite total_cost_snoc. unfold serve at 2. rewrite Hl.
    replace (l <=? zsum x) with true by lia. destruct (servers_range xs HF) as [_ ->].
    destruct (config_single x Hx) as (j & -> & Hj).
    destruct (total_cost _ _ _ _ _ _) as [q|]; cbn [eadd eeq]; [|exact I].
    rewrite sw_single. unfold pay. cbn [zsum fold_right]. rewrite Z.add_0_r. lra.
  Qed.

  Definition Good (n : nat) : Prop := exists xs m, slo_run minimize hit sched p gamma false n = Ok (xs, m) /\
    is_fin (value xs) /\
    forall ys, feasible_schedule (Z.of_nat n) (l_bounds p) ys ->
      ele (eadd (value xs) (Fin (reserve (Z.of_nat n) m (servers ys)))) (escale 2 (value ys)).

  Lemma good_start : Good 0.
  Proof.
    exists [], (slo_default p gamma). split; [reflexivity|]. split; [exact I|]. intros ys [HL _]. destruct ys; [|simpl in HL; lia].
    cbn [value total_cost eadd escale ele servers last].
    assert (E : (reserve (Z.of_nat 0) (slo_default p gamma) (zsum [0%Z]) == 0)%Q).
    { unfold reserve. rewrite (map_ext_in _ (fun _ => 0%Q)).
      - generalize (seq 0 (Z.to_nat u)). induction l; cbn; [reflexivity|]. rewrite IHl. reflexivity.
      - intros j _. unfold slo_default. cbn [sm_lanes]. rewrite nth_repeat. unfold potential, level. cbn [Z.eqb zsum fold_right Z.add].
        destruct (Z.ltb_spec (Z.of_nat j) 0); [lia|reflexivity]. }
    rewrite E. lra.
  Qed.

  Lemma lanes_01 n xs m : Run minimize hit sched p gamma false n xs m ->
    Z.of_nat (length (sm_lanes m)) = u /\ Z.of_nat (length (sm_horizons m)) = u /\
    (forall j, (j < Z.to_nat u)%nat ->
      (nth j (sm_lanes m) 0 = 0 \/ nth j (sm_lanes m) 0 = 1) /\
      (nth j (sm_lanes m) 0 = 1 -> nth j (sm_horizons m) 0 <= Z.of_nat n + tau)).
  Proof.
    intros H. pose proof (run_inv _ _ _ _ _ _ _ _ _ H) as HI.
    assert (EN : zsum (l_bounds p) = u) by (rewrite Eu; cbn; lia).
    pose proof (inv_lanes _ _ _ _ _ HI) as L1. pose proof (inv_hors _ _ _ _ _ HI) as L2. rewrite EN in L1, L2.
    split; [exact L1|]. split; [exact L2|]. intros j Hj.
    destruct (nth_error_ex (sm_lanes m) j) as [a Ha]; [lia|]. destruct (nth_error_ex (sm_horizons m) j) as [b Hb]; [lia|].
    rewrite (nth_error_nth _ _ _ Ha), (nth_error_nth _ _ _ Hb).
    pose proof (inv_range _ _ _ _ _ HI) as F. rewrite Forall_forall in F. specialize (F a (nth_error_In _ _ Ha)). rewrite Hd in F.
    split; [lia|]. intros Ea. pose proof (inv_horizon _ _ _ _ _ HI j a b Ha Hb) as HH. rewrite idle_single in HH by lia.
    destruct (Z.eqb_spec a 0); lia.
  Qed.

  Lemma good_step n : Z.of_nat n < T -> Good n -> Good (S n).
  Proof.
    intros Hn (xs0 & m0 & E0 & Fin0 & G0).
    destruct (run_step minimize hit sched p HP HR HE gamma false ltac:(discriminate) n Hn)
      as (xs & m & x & m' & opt & E1 & E2 & L1 & L2 & Hx & HO & HS).
    assert (xs0 = xs) by congruence. assert (m0 = m) by congruence. subst xs0 m0. clear E0.
    destruct (run_ok minimize hit sched p HP HR HE gamma false ltac:(discriminate) n ltac:(lia)) as (xs1 & m1 & E3 & R1).
    assert (xs1 = xs) by congruence. assert (m1 = m) by congruence. subst xs1 m1. clear E3.
    destruct (run_ok minimize hit sched p HP HR HE gamma false ltac:(discriminate) (S n) ltac:(lia)) as (xs1 & m1 & E3 & R2).
    assert (xs1 = xs ++ [x]) by congruence. assert (m1 = m') by congruence. subst xs1 m1. clear E3.
    destruct (lanes_01 n xs m R1) as (A1 & A2 & A3). destruct (lanes_01 (S n) _ m' R2) as (B1 & B2 & B3).
    pose proof (run_len _ _ _ _ _ _ _ _ _ R1) as Lx. pose proof (run_feasible _ _ _ _ _ _ _ _ _ R2) as Fx.
    apply Forall_app in Fx as [Fxs Fx]. apply Forall_inv in Fx.
    set (t := Z.of_nat n + 1) in *. assert (Ht : 1 <= t <= T) by (unfold t; lia).
    destruct (load_at t Ht) as (l & Hl & Hl0). destruct (optimal_now t opt l Ht Hl HO) as [Eopt Hlu].
    assert (Hli : nth_error (l_load p) n = Some l).
    { apply access_spec in Hl as [_ Hl]. replace (Z.to_nat (t - 1)) with n in Hl by (unfold t; lia). exact Hl. }
    pose proof (run_covers _ _ _ _ _ _ _ _ _ R2 n l x Hli) as Hcov.
    rewrite nth_error_app2 in Hcov by lia. rewrite Lx, Nat.sub_diag in Hcov. specialize (Hcov eq_refl).
    (* servers of a run are active lanes *)
    assert (Elanes : zsum x = zsum (map (fun j => nth j (sm_lanes m') 0) (seq 0 (Z.to_nat u)))).
    { destruct (config_single x Fx) as (j & -> & Hj). cbn [zsum fold_right]. rewrite Z.add_0_r.
      rewrite (Hx 0%nat j eq_refl). change (Z.of_nat 0 + 1) with 1.
      rewrite count_sum. { replace (Z.to_nat u) with (length (sm_lanes m')) by lia. rewrite map_nth_seq. reflexivity. }
      pose proof (inv_range _ _ _ _ _ (run_inv _ _ _ _ _ _ _ _ _ R2)) as F. rewrite Hd in F. exact F. }
    assert (Eprev : servers xs = zsum (map (fun j => nth j (sm_lanes m) 0) (seq 0 (Z.to_nat u)))).
    { unfold servers. destruct n as [|n'].
      - destruct xs; [|discriminate Lx]. cbn [last zsum fold_right].
        assert (m = slo_default p gamma) by (unfold slo_run in E1; cbn in E1; congruence). subst m.
        unfold slo_default. cbn [sm_lanes]. rewrite (map_ext _ (fun _ => 0)).
        + generalize (seq 0 (Z.to_nat u)). induction l0; cbn; [reflexivity|]. unfold zsum in IHl0. cbn in IHl0. lia.
        + intros j. apply nth_repeat.
      - destruct (run_step minimize hit sched p HP HR HE gamma false ltac:(discriminate) n' ltac:(lia))
          as (xs2 & m2 & x2 & m3 & opt2 & _ & E5 & _ & _ & Hx2 & _).
        assert (Exs : xs = xs2 ++ [x2]) by congruence. assert (m3 = m) by congruence. subst m3.
        rewrite Exs, last_last. rewrite Exs in Fxs. apply Forall_app in Fxs as [_ Fx2]. apply Forall_inv in Fx2.
        destruct (config_single x2 Fx2) as (j & Ej & Hj). subst x2. cbn [zsum fold_right]. rewrite Z.add_0_r.
        rewrite (Hx2 0%nat j eq_refl). change (Z.of_nat 0 + 1) with 1.
        rewrite count_sum. { replace (Z.to_nat u) with (length (sm_lanes m)) by lia. rewrite map_nth_seq. reflexivity. }
        pose proof (inv_range _ _ _ _ _ (run_inv _ _ _ _ _ _ _ _ _ R1)) as F. rewrite Hd in F. exact F. }
    assert (Hl' : access (l_load p) (1 + Z.of_nat (length xs)) = Some l).
    { rewrite Lx. replace (1 + Z.of_nat n) with t by (unfold t; lia). exact Hl. }
    pose proof (value_snoc xs x l Hl' Fxs Fx Hcov) as EV.
    exists (xs ++ [x]), m'. split; [exact E2|]. split.
    { eapply is_fin_eeq; [apply eeq_sym; exact EV|]. destruct (value xs); [exact I|contradiction]. }
    intros ys0 [HLy HFy]. destruct (exists_last (l := ys0)) as (ys & y & ->). { intros ->. simpl in HLy. lia. }
    rewrite app_length in HLy. simpl in HLy. apply Forall_app in HFy as [HFys HFy]. apply Forall_inv in HFy.
    assert (HLy' : Z.of_nat (length ys) = Z.of_nat n) by lia.
    specialize (G0 ys (conj HLy' HFys)).
    assert (Hly : access (l_load p) (1 + Z.of_nat (length ys)) = Some l) by (rewrite HLy', <- Lx; exact Hl').
    destruct (config_single y HFy) as (k & -> & Hk). unfold servers at 1. rewrite last_last.
    assert (Ek : zsum [k] = k) by (cbn; lia). rewrite Ek.
    destruct (Z_lt_le_dec k l) as [Hkl|Hkl].
    { (* the other schedule does not serve the load *)
      assert (EI : eeq (value (ys ++ [[k]])) Inf).
      { unfold value. rewrite total_cost_snoc. unfold serve at 2. rewrite Hly, Ek. replace (l <=? k) with false by lia.
        destruct (total_cost _ _ _ _ _ _); exact I. }
      destruct (value (ys ++ [[k]])); [contradiction|]. cbn [escale]; destruct (eadd (value (xs ++ [x])) _); exact I. }
    pose proof (value_snoc ys [k] l Hly HFys HFy ltac:(lia)) as EY. rewrite Ek in EY.
    assert (Hstep : (pay c beta (servers xs) (zsum x) + reserve (Z.of_nat (S n)) m' k <=
                     reserve (Z.of_nat n) m (servers ys) + 2 * pay c beta (servers ys) k)%Q).
    { destruct (servers_range ys HFys) as [Hsy _].
      assert (Q1 : (pay c beta (servers xs) (zsum x) <=
        Qsum (map (fun j => pay c beta (nth j (sm_lanes m) 0%Z) (nth j (sm_lanes m') 0%Z)) (seq 0 (Z.to_nat u))))%Q).
      { rewrite lanes_pay, <- Elanes. unfold pay at 1. apply Qplus_le_r. rewrite !(Qmult_comm beta).
        apply Qmult_le_compat_r; [|apply Hb0]. rewrite <- Zle_Qle. rewrite Eprev, Elanes. apply sum_up. }
      assert (Q2 : (pay c beta (servers ys) k ==
        Qsum (map (fun j => pay c beta (level (servers ys) j) (level k j)) (seq 0 (Z.to_nat u))))%Q).
      { rewrite lanes_pay, sum_level, sum_up_level by lia. reflexivity. }
      assert (Q3 : (Qsum (map (fun j => pay c beta (nth j (sm_lanes m) 0%Z) (nth j (sm_lanes m') 0%Z)
                       + potential c tau (Z.of_nat n + 1) (nth j (sm_lanes m') 0%Z) (nth j (sm_horizons m') 0%Z) (level k j)) (seq 0 (Z.to_nat u)))
                  <= Qsum (map (fun j => potential c tau (Z.of_nat n) (nth j (sm_lanes m) 0%Z) (nth j (sm_horizons m) 0%Z) (level (servers ys) j)
                       + 2 * pay c beta (level (servers ys) j) (level k j)) (seq 0 (Z.to_nat u))))%Q).
      { apply Qsum_le. intros j Hj. apply in_seq in Hj. assert (Hj' : (j < Z.to_nat u)%nat) by lia.
        destruct (A3 j Hj') as [Aa Ah].
        destruct (nth_error_ex (sm_lanes m) j) as [a Ha]; [lia|]. destruct (nth_error_ex (sm_horizons m) j) as [b Hb]; [lia|].
        destruct (nth_error_ex (sm_lanes m') j) as [a' Ha']; [lia|]. destruct (nth_error_ex (sm_horizons m') j) as [b' Hb']; [lia|].
        specialize (HS j a b a' b' Ha Hb Ha' Hb'). cbv zeta in HS. rewrite Eopt in HS.
        assert (Eq : nth j (lanes_of 1 [l]) 0 = level l j).
        { cbn [lanes_of app]. unfold level. destruct (Z.ltb_spec (Z.of_nat j) l).
          - apply nth_error_nth. apply nth_error_repeat. lia.
          - apply nth_overflow. rewrite repeat_length. lia. }
        rewrite Eq in HS. assert (H01 : forall y, level y j = 0 \/ level y j = 1) by (intros y; unfold level; destruct (Z.ltb _ _); auto).
        rewrite idle_single in HS by apply H01. destruct HS as [S1 S2].
        rewrite (nth_error_nth _ _ _ Ha) in *. rewrite (nth_error_nth _ _ _ Hb) in *.
        rewrite (nth_error_nth _ _ _ Ha'), (nth_error_nth _ _ _ Hb').
        refine (proj1 (lane_slot c beta tau Hc0 tau_nonneg tau_lo tau_hi (Z.of_nat n) a b (level l j) (level (servers ys) j) a' b' (level k j)
          Aa (H01 _) (H01 _) (H01 _) _ Ah S1 S2)).
        unfold level. destruct (Z.ltb_spec (Z.of_nat j) l), (Z.ltb_spec (Z.of_nat j) k); lia. }
      rewrite !Qsum_plus, Qsum_scale in Q3. unfold reserve.
      replace (Z.of_nat (S n)) with (Z.of_nat n + 1) by lia. rewrite Q2. lra. }
    rewrite EV, (escale_eeq _ _ _ EY). destruct (value xs) as [a|]; [|contradiction].
    destruct (value ys) as [b|]; cbn [eadd escale ele] in *; [|exact I]. lra.
  Qed.

  Lemma good n : Z.of_nat n <= T -> Good n.
  Proof. induction n as [|n IH]; intros H; [apply good_start|]. apply good_step; [lia|]. apply IH. lia. Qed.

  Lemma reserve_nonneg n xs m y : Run minimize hit sched p gamma false n xs m -> (0 <= reserve (Z.of_nat n) m y)%Q.
  Proof.
    intros H. destruct (lanes_01 n xs m H) as (_ & _ & A). unfold reserve.
    assert (E : (Qsum (map (fun _ : nat => 0%Q) (seq 0 (Z.to_nat u))) == 0)%Q).
    { generalize (seq 0 (Z.to_nat u)). induction l; cbn; [reflexivity|]. rewrite IHl. reflexivity. }
    rewrite <- E. apply Qsum_le. intros j Hj. apply in_seq in Hj. apply potential_nonneg; [apply Hc0|].
    apply (A j). lia.
  Qed.

  Lemma objective_value_total n xs : Z.of_nat n <= T -> feasible_schedule (Z.of_nat n) (l_bounds p) xs ->
    exists k, slo_objective_fn s (slo_at p (Z.of_nat n)) 1 xs = Ok k /\ eeq (c_cost k) (value xs).
  Proof.
    intros Hn Hx.
    destruct (objective_generic (fun _ _ => tt) OutsideDecisionSpace s (slo_problem valZ (slo_at p (Z.of_nat n))) (l_d p) (Z.of_nat n)
      (l_bounds p) (l_switching p) (hit_of OutsideDecisionSpace (slo_hit valZ p)) 1 xs) as (k & Hk & Ek); auto.
    - apply (si_bounds p HP).
    - apply (si_switching p HP).
    - intros i x Hi. assert (i < length xs)%nat by (apply nth_error_Some; congruence). destruct Hx as [HL HF].
      rewrite Forall_forall in HF. specialize (HF x (nth_error_In _ _ Hi)).
      destruct (slo_hit_serve (1 + Z.of_nat i) x ltac:(lia) HF) as (k & Hk & _).
      cbn [slo_problem op_hit]. unfold hit_of. rewrite Hk. exact Hk.
    - exists k. split; [exact Hk|]. rewrite Ek. unfold value. rewrite Eb, Hd. change (repeat 0 (Z.to_nat 1)) with [0].
      apply total_cost_at. intros i x Hi. assert (i < length xs)%nat by (apply nth_error_Some; congruence). destruct Hx as [HL HF].
      rewrite Forall_forall in HF. specialize (HF x (nth_error_In _ _ Hi)).
      destruct (slo_hit_serve (1 + Z.of_nat i) x ltac:(lia) HF) as (k' & Hk' & Ek').
      unfold hit_of. rewrite Hk'. exact Ek'.
  Qed.

  Lemma run_within_two n : Z.of_nat n <= T ->
    exists xs m, slo_run minimize hit sched p gamma false n = Ok (xs, m) /\
      cheapest_within 2 (slo_objective_fn s (slo_at p (Z.of_nat n)) 1) (Z.of_nat n) (l_bounds p) xs.
  Proof.
    intros Hn. destruct (good n Hn) as (xs & m & E & HF & G).
    destruct (run_ok minimize hit sched p HP HR HE gamma false ltac:(discriminate) n Hn) as (xs1 & m1 & E1 & R1).
    assert (xs1 = xs) by congruence. assert (m1 = m) by congruence. subst xs1 m1.
    exists xs, m. split; [exact E|].
    assert (Hx : feasible_schedule (Z.of_nat n) (l_bounds p) xs).
    { split; [f_equal; apply (run_len _ _ _ _ _ _ _ _ _ R1)|apply (run_feasible _ _ _ _ _ _ _ _ _ R1)]. }
    split; [exact Hx|]. destruct (objective_value_total n xs Hn Hx) as (k & Hk & Ek). exists k.
    split; [exact Hk|]. split; [eapply is_fin_eeq; [apply eeq_sym, Ek|exact HF]|].
    intros ys Hy _. destruct (objective_value_total n ys Hn Hy) as (k' & Hk' & Ek'). exists k'. split; [exact Hk'|].
    rewrite Ek, (escale_eeq _ _ _ Ek'). specialize (G ys Hy). pose proof (reserve_nonneg n xs m (servers ys) R1).
    destruct (value xs) as [a|]; [|contradiction]. destruct (value ys) as [b|]; cbn [eadd escale ele] in *; [lra|exact I].
  Qed.
End Single.
