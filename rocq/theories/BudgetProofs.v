(** Proofs about lazy budgeting for SLO. *)
From Coq Require Import Lia Lqa Qround.
From Verif Require Import NumLemmas CostModel ConvertObjective LoadProofs BudgetModel BudgetSpec BudgetCover BudgetLanes GraphSearchProofs.
From Verif Require Import CostModel ProblemModel.
Local Open Scope Z_scope.

Lemma nth_error_ex {A} (l : list A) i : (i < length l)%nat -> exists a, nth_error l i = Some a.
Proof. intros H. destruct (nth_error l i) eqn:E; [eauto|]. apply nth_error_None in E. lia. Qed.

Lemma nth_error_lt {A} (l : list A) i a : nth_error l i = Some a -> (i < length l)%nat.
Proof. intros H. apply nth_error_Some. congruence. Qed.

Section Steps.
  Variable p : gslo Z.
  Hypothesis HP : slo_instance p.
  Variable gamma : Q.
  Variable randomized : bool.
  Hypothesis Hgamma : randomized = true -> (0 <= gamma)%Q.

  Notation d := (l_d p).
  Notation N := (zsum (l_bounds p)).
  Notation h := (idle_slots p gamma randomized).

  Lemma N_nonneg : 0 <= N.
  Proof. apply zsum_nonneg. eapply Forall_impl; [|exact (si_bounds_pos p HP)]. simpl. intros; lia. Qed.

  Lemma type_costs k : 1 <= k <= d -> exists b l, nth_error (l_switching p) (Z.to_nat (k - 1)) = Some b /\
    nth_error (l_hitting p) (Z.to_nat (k - 1)) = Some l /\ (0 <= b)%Q /\ (0 < l)%Q.
  Proof.
    intros Hk. pose proof (si_switching p HP). pose proof (si_hitting p HP).
    destruct (nth_error_ex (l_switching p) (Z.to_nat (k - 1))) as [b Hb]; [lia|].
    destruct (nth_error_ex (l_hitting p) (Z.to_nat (k - 1))) as [l Hl]; [lia|].
    exists b, l. split; [exact Hb|]. split; [exact Hl|]. split.
    - pose proof (si_switching_pos p HP) as F. rewrite Forall_forall in F. apply F. eapply nth_error_In, Hb.
    - pose proof (si_hitting_pos p HP) as F. rewrite Forall_forall in F. apply F. eapply nth_error_In, Hl.
  Qed.

  Lemma factor_nonneg : (0 <= if randomized then gamma else 1)%Q.
  Proof. destruct randomized; [auto|lra]. Qed.

  Lemma horizon_ok k : 0 <= k <= d ->
    next_time_horizon (l_hitting p) (l_switching p) k gamma randomized = Ok (h k).
  Proof.
    intros Hk. unfold next_time_horizon, idle_slots. destruct (k =? 0) eqn:E; [reflexivity|].
    apply Z.eqb_neq in E. destruct (type_costs k) as (b & l & Hb & Hl & H1 & H2); [lia|].
    rewrite (proj2 (at_index_Some (l_switching p) (k - 1) b)) by (split; [lia|exact Hb]).
    rewrite (proj2 (at_index_Some (l_hitting p) (k - 1) l)) by (split; [lia|exact Hl]). cbn [obind].
    rewrite (nth_error_nth _ _ _ Hb), (nth_error_nth _ _ _ Hl).
    destruct (Qeq_bool l 0) eqn:E0; [apply Qeq_bool_iff in E0; lra|]. reflexivity.
  Qed.

  Lemma h_mono j k : 0 <= j <= k -> k <= d -> h j <= h k.
  Proof.
    intros Hj Hk. unfold idle_slots. destruct (k =? 0) eqn:Ek.
    - apply Z.eqb_eq in Ek. replace j with 0 by lia. simpl. lia.
    - apply Z.eqb_neq in Ek. destruct (type_costs k) as (b & l & Hb & Hl & H1 & H2); [lia|].
      rewrite (nth_error_nth _ _ _ Hb), (nth_error_nth _ _ _ Hl). pose proof factor_nonneg as HF.
      set (g := (if randomized then gamma else 1%Q)) in *.
      destruct (j =? 0) eqn:Ej.
      + change 0 with (Qfloor 0). apply Qfloor_resp_le. apply Qle_shift_div_l; [exact H2|].
        setoid_replace (0 * l)%Q with 0%Q by ring. apply Qmult_le_0_compat; assumption.
      + apply Z.eqb_neq in Ej. destruct (type_costs j) as (b' & l' & Hb' & Hl' & H1' & H2'); [lia|].
        rewrite (nth_error_nth _ _ _ Hb'), (nth_error_nth _ _ _ Hl').
        assert (Hbb : (b' <= b)%Q) by (eapply (si_switching_order p HP (Z.to_nat (j - 1)) (Z.to_nat (k - 1))); eauto; lia).
        assert (Hll : (l <= l')%Q) by (eapply (si_hitting_order p HP (Z.to_nat (j - 1)) (Z.to_nat (k - 1))); eauto; lia).
        apply Qfloor_resp_le. apply Qle_shift_div_l; [exact H2|].
        assert (E : (g * b' / l' * l == g * b' * (l / l'))%Q) by (field; lra). rewrite E.
        assert (Hr : (l / l' <= 1)%Q) by (apply Qle_shift_div_r; lra).
        assert (Hr0 : (0 <= l / l')%Q) by (apply Qle_shift_div_l; lra).
        assert (0 <= g * b')%Q by (apply Qmult_le_0_compat; assumption).
        assert (g * b' * (l / l') <= g * b' * 1)%Q by (apply Qmult_le_l_alt || (rewrite (Qmult_comm (g * b') (l / l')), (Qmult_comm (g * b') 1); apply Qmult_le_compat_r; assumption)).
        assert (b' * g <= b * g)%Q by (apply Qmult_le_compat_r; assumption). lra.
  Qed.

  (** Lanes of a feasible configuration. *)
  Definition opt_ok (o : list Z) : Prop :=
    Z.of_nat (length o) = N /\ non_increasing o /\ Forall (fun j => 0 <= j <= d) o /\
    forall i u, nth_error (l_bounds p) i = Some u -> count o (Z.of_nat i + 1) <= u.

  Record Inv (t : Z) (m : slo_memory) : Prop := {
    inv_lanes : Z.of_nat (length (sm_lanes m)) = N;
    inv_hors : Z.of_nat (length (sm_horizons m)) = N;
    inv_lanes_sorted : non_increasing (sm_lanes m);
    inv_hors_sorted : non_increasing (sm_horizons m);
    inv_range : Forall (fun j => 0 <= j <= d) (sm_lanes m);
    inv_horizon : forall i a b, nth_error (sm_lanes m) i = Some a -> nth_error (sm_horizons m) i = Some b -> b <= t + h a;
    inv_witness : forall j a, nth_error (sm_lanes m) j = Some a -> exists o, opt_ok o /\ nth_error o j = Some a /\
      forall i b c, (i < j)%nat -> nth_error o i = Some b -> nth_error (sm_lanes m) i = Some c -> b <= c;
    inv_gamma : sm_gamma m = gamma
  }.

  Lemma opt_ok_zero : opt_ok (repeat 0 (Z.to_nat N)).
  Proof.
    pose proof N_nonneg. split; [rewrite repeat_length; lia|]. split; [apply non_increasing_repeat|]. split.
    - apply Forall_forall. intros j Hj. apply repeat_spec in Hj. pose proof (si_d p HP). lia.
    - intros i u Hu. rewrite count_repeat. destruct (Z.eq_dec _ _); [lia|].
      pose proof (si_bounds_pos p HP) as F. rewrite Forall_forall in F. specialize (F u (nth_error_In _ _ Hu)). lia.
  Qed.

  Lemma Inv_init : Inv 0 (slo_default p gamma).
  Proof.
    pose proof N_nonneg. unfold slo_default. split; simpl.
    - rewrite repeat_length. lia.
    - rewrite repeat_length. lia.
    - apply non_increasing_repeat.
    - apply non_increasing_repeat.
    - apply Forall_forall. intros j Hj. apply repeat_spec in Hj. pose proof (si_d p HP). lia.
    - intros i a b Ha Hb. apply nth_error_In, repeat_spec in Ha. apply nth_error_In, repeat_spec in Hb. subst.
      unfold idle_slots. simpl. lia.
    - intros j a Ha. exists (repeat 0 (Z.to_nat N)). split; [apply opt_ok_zero|]. split; [exact Ha|].
      intros i b c _ Hb Hc. apply nth_error_In, repeat_spec in Hb. apply nth_error_In, repeat_spec in Hc. lia.
    - reflexivity.
  Qed.

  (** What happens to one lane. *)
  Definition upd (t a c b : Z) : Z * Z :=
    if (a <? c) || (b <=? t) then (c, t + h c) else (a, Z.max b (t + h c)).

  Lemma upd_cases t a c b :
    (a < c \/ b <= t) /\ upd t a c b = (c, t + h c) \/
    (c <= a /\ t < b) /\ upd t a c b = (a, Z.max b (t + h c)).
  Proof.
    unfold upd. destruct (a <? c) eqn:E1; simpl.
    - apply Z.ltb_lt in E1. left. split; [lia|reflexivity].
    - apply Z.ltb_ge in E1. destruct (b <=? t) eqn:E2.
      + apply Z.leb_le in E2. left. split; [lia|reflexivity].
      + apply Z.leb_gt in E2. right. split; [lia|reflexivity].
  Qed.

  Lemma upd_ge t a c b : c <= fst (upd t a c b).
  Proof. destruct (upd_cases t a c b) as [[H ->]|[H ->]]; simpl; lia. Qed.

  (** Consecutive updates of the lanes. *)
  Definition updated (t : Z) (m : slo_memory) (o : list Z) (new : list (Z * Z)) : Prop :=
    Z.of_nat (length new) = N /\
    forall i a c b, nth_error (sm_lanes m) i = Some a -> nth_error o i = Some c ->
      nth_error (sm_horizons m) i = Some b -> nth_error new i = Some (upd t a c b).

  Lemma update_ok t t' m o : Inv t m -> opt_ok o ->
    exists new, omap (update_lane (slo_at p t') t' m o randomized) (zrange 0 (N - 1)) = Ok new /\ updated t' m o new.
  Proof.
    intros HI HO. pose proof N_nonneg as HN. destruct HO as (O1 & O2 & O3 & O4).
    pose proof (inv_lanes t m HI) as L1. pose proof (inv_hors t m HI) as L2.
    assert (HU : forall j, 0 <= j < N -> exists a c b, nth_error (sm_lanes m) (Z.to_nat j) = Some a /\
      nth_error o (Z.to_nat j) = Some c /\ nth_error (sm_horizons m) (Z.to_nat j) = Some b /\
      update_lane (slo_at p t') t' m o randomized j = Ok (upd t' a c b)).
    { intros j Hj. destruct (nth_error_ex (sm_lanes m) (Z.to_nat j)) as [a Ha]; [lia|].
      destruct (nth_error_ex o (Z.to_nat j)) as [c Hc]; [lia|].
      destruct (nth_error_ex (sm_horizons m) (Z.to_nat j)) as [b Hb]; [lia|].
      exists a, c, b. split; [exact Ha|]. split; [exact Hc|]. split; [exact Hb|].
      unfold update_lane. rewrite (proj2 (at_index_Some _ j a)) by (split; [lia|exact Ha]).
      rewrite (proj2 (at_index_Some _ j c)) by (split; [lia|exact Hc]).
      rewrite (proj2 (at_index_Some _ j b)) by (split; [lia|exact Hb]). cbn [obind].
      rewrite (inv_gamma t m HI). simpl l_hitting. simpl l_switching.
      rewrite Forall_forall in O3. rewrite horizon_ok by (apply O3; eapply nth_error_In, Hc). reflexivity. }
    destruct (omap_exists (update_lane (slo_at p t') t' m o randomized) (zrange 0 (N - 1))) as [new Hnew].
    { intros j Hj. apply zrange_In in Hj. destruct (HU j) as (a & c & b & _ & _ & _ & E); [lia|]. eauto. }
    exists new. split; [exact Hnew|]. split.
    - rewrite (omap_length _ _ _ Hnew), zrange_length. lia.
    - intros i a c b Ha Hc Hb. pose proof (nth_error_lt _ _ _ Ha) as Hi.
      destruct (nth_error_omap _ _ _ i (Z.of_nat i) Hnew) as (q & Hq & Hn).
      { rewrite <- (Nat2Z.id i) at 1. apply zrange_nth_error. lia. }
      destruct (HU (Z.of_nat i)) as (a' & c' & b' & Ha' & Hc' & Hb' & E); [lia|]. rewrite Nat2Z.id in *.
      rewrite Hn. assert (a' = a) by congruence. assert (c' = c) by congruence. assert (b' = b) by congruence. subst. congruence.
  Qed.

  Lemma updated_inv t m o new i l' h' : Inv t m -> opt_ok o -> updated (t + 1) m o new ->
    nth_error new i = Some (l', h') -> exists a c b, nth_error (sm_lanes m) i = Some a /\ nth_error o i = Some c /\
      nth_error (sm_horizons m) i = Some b /\ (l', h') = upd (t + 1) a c b.
  Proof.
    intros HI (O1 & _) [U1 U2] Hi. pose proof (nth_error_lt _ _ _ Hi) as Hlt.
    pose proof (inv_lanes t m HI) as L1. pose proof (inv_hors t m HI) as L2.
    destruct (nth_error_ex (sm_lanes m) i) as [a Ha]; [lia|].
    destruct (nth_error_ex o i) as [c Hc]; [lia|].
    destruct (nth_error_ex (sm_horizons m) i) as [b Hb]; [lia|].
    exists a, c, b. split; [exact Ha|]. split; [exact Hc|]. split; [exact Hb|].
    rewrite (U2 i a c b Ha Hc Hb) in Hi. congruence.
  Qed.

  Lemma nth_error_map_fst (new : list (Z * Z)) i a : nth_error (map fst new) i = Some a -> exists b, nth_error new i = Some (a, b).
  Proof. rewrite nth_error_map. destruct (nth_error new i) as [[x y]|]; simpl; [|discriminate]. intros H. assert (x = a) by congruence. subst. eauto. Qed.

  Lemma nth_error_map_snd (new : list (Z * Z)) i b : nth_error (map snd new) i = Some b -> exists a, nth_error new i = Some (a, b).
  Proof. rewrite nth_error_map. destruct (nth_error new i) as [[x y]|]; simpl; [|discriminate]. intros H. assert (y = b) by congruence. subst. eauto. Qed.

  Lemma opt_range o i c : opt_ok o -> nth_error o i = Some c -> 0 <= c <= d.
  Proof. intros (_ & _ & F & _) H. rewrite Forall_forall in F. apply F. eapply nth_error_In, H. Qed.

  Lemma Inv_step t m o new cache : Inv t m -> opt_ok o -> updated (t + 1) m o new ->
    Inv (t + 1) (mkSM (map fst new) (map snd new) gamma cache).
  Proof.
    intros HI HO HU. pose proof (updated_inv t m o new) as UI.
    assert (R : forall i a, nth_error (sm_lanes m) i = Some a -> 0 <= a <= d).
    { intros i a Ha. pose proof (inv_range t m HI) as F. rewrite Forall_forall in F. apply F. eapply nth_error_In, Ha. }
    pose proof HO as (O1 & O2 & O3 & O4).
    split; cbn [sm_lanes sm_horizons sm_gamma].
    - rewrite map_length. apply HU.
    - rewrite map_length. apply HU.
    - (* lanes sorted: i before j *)
      intros i j x y Hij Hx Hy. apply nth_error_map_fst in Hx as [hx Hx]. apply nth_error_map_fst in Hy as [hy Hy].
      destruct (UI i x hx HI HO HU Hx) as (ai & ci & bi & Hai & Hci & Hbi & Ei).
      destruct (UI j y hy HI HO HU Hy) as (aj & cj & bj & Haj & Hcj & Hbj & Ej).
      pose proof (inv_lanes_sorted t m HI i j ai aj Hij Hai Haj) as S1.
      pose proof (inv_hors_sorted t m HI i j bi bj Hij Hbi Hbj) as S2.
      pose proof (O2 i j ci cj Hij Hci Hcj) as S3.
      destruct (upd_cases (t + 1) ai ci bi) as [[Ci Ui]|[Ci Ui]]; rewrite Ui in Ei;
      destruct (upd_cases (t + 1) aj cj bj) as [[Cj Uj]|[Cj Uj]]; rewrite Uj in Ej;
      assert (x = fst (x, hx)) as -> by reflexivity; assert (y = fst (y, hy)) as -> by reflexivity;
      rewrite Ei, Ej; simpl; lia.
    - intros i j x y Hij Hx Hy. apply nth_error_map_snd in Hx as [lx Hx]. apply nth_error_map_snd in Hy as [ly Hy].
      destruct (UI i lx x HI HO HU Hx) as (ai & ci & bi & Hai & Hci & Hbi & Ei).
      destruct (UI j ly y HI HO HU Hy) as (aj & cj & bj & Haj & Hcj & Hbj & Ej).
      pose proof (inv_lanes_sorted t m HI i j ai aj Hij Hai Haj) as S1.
      pose proof (inv_hors_sorted t m HI i j bi bj Hij Hbi Hbj) as S2.
      pose proof (O2 i j ci cj Hij Hci Hcj) as S3.
      pose proof (opt_range o i ci HO Hci) as Rci. pose proof (opt_range o j cj HO Hcj) as Rcj.
      pose proof (R _ _ Hai) as Rai. pose proof (R _ _ Haj) as Raj.
      pose proof (inv_horizon t m HI j aj bj Haj Hbj) as Hj.
      pose proof (h_mono cj ci ltac:(lia) ltac:(lia)) as M1.
      destruct (upd_cases (t + 1) ai ci bi) as [[Ci Ui]|[Ci Ui]]; rewrite Ui in Ei;
      destruct (upd_cases (t + 1) aj cj bj) as [[Cj Uj]|[Cj Uj]]; rewrite Uj in Ej;
      assert (x = snd (lx, x)) as -> by reflexivity; assert (y = snd (ly, y)) as -> by reflexivity;
      rewrite Ei, Ej; cbn [snd]; try lia.
      (* i was raised, j kept *)
      assert (ai < ci) by lia. pose proof (h_mono aj ci ltac:(lia) ltac:(lia)). lia.
    - apply Forall_forall. intros j Hj. apply In_nth_error in Hj as [i Hi]. apply nth_error_map_fst in Hi as [b Hi].
      destruct (UI i j b HI HO HU Hi) as (ai & ci & bi & Hai & Hci & Hbi & Ei).
      pose proof (opt_range o i ci HO Hci). pose proof (R _ _ Hai).
      destruct (upd_cases (t + 1) ai ci bi) as [[Ci Ui]|[Ci Ui]]; rewrite Ui in Ei;
        assert (j = fst (j, b)) as -> by reflexivity; rewrite Ei; simpl; lia.
    - intros i x y Hx Hy. apply nth_error_map_fst in Hx as [hx Hx]. apply nth_error_map_snd in Hy as [ly Hy].
      assert (E : (x, hx) = (ly, y)) by congruence. assert (ly = x) by congruence. assert (hx = y) by congruence. subst ly hx.
      destruct (UI i x y HI HO HU Hx) as (ai & ci & bi & Hai & Hci & Hbi & Ei).
      pose proof (opt_range o i ci HO Hci). pose proof (R _ _ Hai).
      pose proof (inv_horizon t m HI i ai bi Hai Hbi) as Hj.
      destruct (upd_cases (t + 1) ai ci bi) as [[Ci Ui]|[Ci Ui]]; rewrite Ui in Ei.
      + assert (x = ci) by congruence. assert (y = t + 1 + h ci) by congruence. subst. lia.
      + assert (x = ai) by congruence. assert (y = Z.max bi (t + 1 + h ci)) by congruence. subst.
        pose proof (h_mono ci ai ltac:(lia) ltac:(lia)). lia.
    - (* witnesses *)
      intros j x Hx. apply nth_error_map_fst in Hx as [hx Hx].
      destruct (UI j x hx HI HO HU Hx) as (aj & cj & bj & Haj & Hcj & Hbj & Ej).
      destruct (upd_cases (t + 1) aj cj bj) as [[Cj Uj]|[Cj Uj]]; rewrite Uj in Ej.
      + assert (x = cj) by congruence. subst x. exists o. split; [exact HO|]. split; [exact Hcj|].
        intros i b c Hij Hb Hc. apply nth_error_map_fst in Hc as [hc Hc].
        destruct (UI i c hc HI HO HU Hc) as (ai & ci & bi & Hai & Hci & Hbi & Ei).
        assert (ci = b) by congruence. subst ci. pose proof (upd_ge (t + 1) ai b bi) as G. rewrite <- Ei in G. exact G.
      + assert (x = aj) by congruence. subst x.
        destruct (inv_witness t m HI j aj Haj) as (o' & HO' & Ho' & W). exists o'. split; [exact HO'|]. split; [exact Ho'|].
        intros i b c Hij Hb Hc. apply nth_error_map_fst in Hc as [hc Hc].
        destruct (UI i c hc HI HO HU Hc) as (ai & ci & bi & Hai & Hci & Hbi & Ei).
        pose proof (W i b ai Hij Hb Hai) as Wi.
        pose proof (inv_hors_sorted t m HI i j bi bj ltac:(lia) Hbi Hbj) as S2.
        destruct (upd_cases (t + 1) ai ci bi) as [[Ci Ui]|[Ci Ui]]; rewrite Ui in Ei;
          assert (c = fst (c, hc)) as -> by reflexivity; rewrite Ei; simpl; lia.
    - reflexivity.
  Qed.

  (** No type is used more often than available. *)
  Lemma Inv_counts t m i u : Inv t m -> nth_error (l_bounds p) i = Some u ->
    count (sm_lanes m) (Z.of_nat i + 1) <= u.
  Proof.
    intros HI Hu. set (k := Z.of_nat i + 1).
    assert (HB : 0 < u).
    { pose proof (si_bounds_pos p HP) as F. rewrite Forall_forall in F. apply F. eapply nth_error_In, Hu. }
    (* the last lane of type k *)
    assert (HL : (forall j, nth_error (sm_lanes m) j <> Some k) \/
      exists j, nth_error (sm_lanes m) j = Some k /\ forall j', (j < j')%nat -> nth_error (sm_lanes m) j' <> Some k).
    { generalize (sm_lanes m). induction l as [|a l IH].
      - left. intros [|j]; discriminate.
      - destruct IH as [IH|(j & Hj & Hlast)].
        + destruct (Z.eq_dec a k) as [->|Hne].
          * right. exists 0%nat. split; [reflexivity|]. intros [|j'] Hj'; [lia|]. apply IH.
          * left. intros [|j]; simpl; [congruence|apply IH].
        + right. exists (S j). split; [exact Hj|]. intros [|j'] Hj'; [lia|]. apply Hlast. lia. }
    destruct HL as [HL|(j & Hj & Hlast)].
    - rewrite count_not_In; [lia|]. intros HIn. apply In_nth_error in HIn as [j Hj]. exact (HL j Hj).
    - destruct (inv_witness t m HI j k Hj) as (o & HO & Ho & W). pose proof HO as (O1 & O2 & O3 & O4).
      eapply Z.le_trans; [|exact (O4 i u Hu)]. fold k. pose proof (inv_lanes t m HI) as L1.
      apply count_le; [lia|]. intros i' Hi'.
      destruct (lt_eq_lt_dec i' j) as [[Hlt|Heq]|Hgt].
      + destruct (nth_error_ex o i') as [b Hb]; [apply nth_error_lt in Hi'; lia|].
        pose proof (W i' b k Hlt Hb Hi'). pose proof (O2 i' j b k ltac:(lia) Hb Ho). rewrite Hb. f_equal. lia.
      + subst i'. exact Ho.
      + destruct (Hlast i' Hgt Hi').
  Qed.
End Steps.
