(** Proofs about solving offline problems with the static integral algorithm. *)
From Coq Require Import Lia Lqa.
From Verif Require Import NumLemmas CostProofs ConvertProofs ConvertObjective VerifySpec VerifyProofs BudgetSpec BudgetCover
  LoadProofs LoadObjective StaticModel StaticSpec StaticProofs GraphSearchSpec ObjectiveProofs.
From Verif Require Import OfflineSpec OfflineProofs OfflineEnd OfflineEndLoads.
From Verif Require Import CostModel.
Local Open Scope Z_scope.

Lemma feasible_range bounds x : feasible_config bounds x <-> in_range (map (fun u => (0, u)) bounds) x.
Proof.
  unfold feasible_config, in_range. split.
  - induction 1; simpl; constructor; auto.
  - revert x. induction bounds as [|u bounds IH]; intros x H; inversion H; subst; constructor; auto.
Qed.

Lemma nested_unimodal_eeq bounds J K : (forall x, in_range bounds x -> eeq (J x) (K x)) ->
  nested_unimodal bounds J -> nested_unimodal bounds K.
Proof.
  intros E H prefix a b c r s Habc Ha Hc. destruct (H prefix a b c r s Habc Ha Hc) as (q & Hq & Hle). exists q. split; [exact Hq|].
  rewrite <- (E _ Hq). pose proof (E _ Ha) as Ea. pose proof (E _ Hc) as Ec. revert Hle Ea Ec.
  generalize (J (prefix ++ b :: q)) (J (prefix ++ a :: r)) (J (prefix ++ c :: s)) (K (prefix ++ a :: r)) (K (prefix ++ c :: s)).
  intros y ja jc ka kc Hle Ea Ec.
  assert (ele (emax ja jc) (emax ka kc)); [|eapply ele_trans; eauto].
  destruct (emax_cases ka kc) as [[-> Hk]|[-> Hk]]; destruct (emax_cases ja jc) as [[-> _]|[-> _]];
    rewrite ?Ea, ?Ec; first [exact Hk|apply ele_refl].
Qed.

Lemma repeat_feasible T bounds x : 0 <= T -> feasible_config bounds x -> feasible_schedule T bounds (repeat x (Z.to_nat T)).
Proof.
  intros HT Hx. split; [rewrite repeat_length; lia|]. apply Forall_forall. intros y Hy. apply repeat_spec in Hy. subst. exact Hx.
Qed.

Section SSCO.
  Context {C D : Type}.
  Variable merge : C -> C -> C.
  Variable vmerge : C -> C -> outcome C.
  Variable outside : D.
  Variable s : split.
  Variable p : gssco Z C D.
  Notation hit := (gssco_hit valZ vmerge outside p).
  Notation obj := (ssco_objective merge vmerge outside s p).
  Notation q := (into_sco valZ vmerge outside p).
  Hypothesis Hwf : well_formed_ssco valZ p.
  Hypothesis Hev : evaluable hit (g_tend p) (g_bounds p).

  Lemma static_image_wf : well_formed q.
  Proof.
    destruct Hwf as (H1 & H2 & H3 & H4 & H5 & H6). cbn [into_sco o_d o_tend o_bounds well_formed].
    split; [exact H1|]. split; [exact H2|]. cbn. rewrite map_length. split; [lia|].
    apply Forall_map. eapply Forall_impl; [|exact (wf_bounds_pos p Hwf)]. simpl. intros. lia.
  Qed.

  Definition image_hit (t : Z) (x : list Z) : ext :=
    match call_mean vmerge (o_cost q) t x with Ok c => c_cost c | _ => Inf end.
  Definition image_norm (x : list Z) : Q := match o_norm q x with Ok n => n | _ => 0%Q end.

  Lemma static_image_costs : has_costs vmerge q image_hit image_norm.
  Proof.
    destruct Hwf as (H1 & H2 & H3 & H4 & H5 & H6).
    assert (forall x, length x = Z.to_nat (g_d p) -> exists n, manhattan_scaled valZ (g_switching p) x = Ok n) as Hn.
    { intros x Hx. apply manhattan_total. lia. }
    split.
    - intros t x Ht Hx. change (o_tend q) with (g_tend p) in Ht. unfold image_hit.
      apply feasible_range in Hx. destruct (Hev t x Ht Hx) as (c & Hc).
      destruct (Hn x) as (n & En). { rewrite (feasible_length _ _ Hx). lia. }
      cbn [into_sco o_cost].
      pose proof (certain_call_mean vmerge (fun t x =>
         if t =? g_tend p then
           do hitting_cost <- gssco_hit valZ vmerge outside p t x;
           do m <- manhattan_scaled valZ (g_switching p) x;
           Ok (mkCost (eadd (c_cost hitting_cost) (Fin m)) (c_out hitting_cost))
         else gssco_hit valZ vmerge outside p t x) t x ltac:(lia)) as HR.
      cbv beta in HR. rewrite Hc, En in HR. cbn [obind] in HR.
      match type of HR with outcome_rel _ ?a _ => destruct a as [e| |] eqn:E end.
      + exists e. split; [reflexivity|apply eeq_refl].
      + destruct (t =? g_tend p); contradiction.
      + destruct (t =? g_tend p); contradiction.
    - intros x Hx. change (o_d q) with (g_d p) in Hx. destruct (Hn x Hx) as (n & En). unfold image_norm. exists n.
      change (o_norm q) with (manhattan_scaled valZ (g_switching p)). rewrite En. split; reflexivity.
  Qed.

  Lemma static_image_value (splits : list Z -> split) x : feasible_config (g_bounds p) x ->
    eeq (static_total image_hit image_norm 1 (o_d q) (o_tend q) x) (static_value (obj 1) (g_tend p) x) /\
    exists c, obj 1 (repeat x (Z.to_nat (g_tend p))) = Ok c /\ eeq (c_cost c) (static_total image_hit image_norm 1 (o_d q) (o_tend q) x).
  Proof.
    intros Hx. destruct Hwf as (H1 & H2 & H3 & H4 & H5 & H6).
    destruct (static_cost_spec vmerge merge outside splits q image_hit image_norm static_image_wf static_image_costs x) as (e & He & Ee).
    { apply feasible_range. exact Hx. }
    unfold static_cost in He. apply obind_inv in He as (c & Hc & He). assert (e = c_cost c) by congruence. subst e.
    change (o_tend q) with (g_tend p) in Hc. change (o_d q) with (g_d p) in Hc.
    pose proof (repeat_feasible (g_tend p) _ x H2 Hx) as Hfs.
    pose proof (into_sco_objective valZ vmerge merge outside p (repeat x (Z.to_nat (g_tend p))) (splits x) valZ_lawful ltac:(lia)) as HR.
    destruct (rel_right _ _ _ (HR ltac:(apply Forall_forall; intros y Hy; apply repeat_spec in Hy; subst y; rewrite (feasible_length _ _ Hx); lia)) Hc) as (c1 & Hc1 & E1).
    destruct (objective_cost vmerge outside p Hwf Hev merge (splits x) 1 _ Hfs) as (c2 & Hc2 & E2).
    destruct (objective_cost vmerge outside p Hwf Hev merge s 1 _ Hfs) as (c3 & Hc3 & E3).
    assert (c2 = c1). { unfold ssco_objective in Hc2. change (gzero valZ (g_d p)) with (repeat 0 (Z.to_nat (g_d p))) in Hc1. congruence. }
    subst c2.
    assert (eeq (c_cost c3) (static_total image_hit image_norm 1 (o_d q) (o_tend q) x)) as E.
    { rewrite E3, <- E2, <- E1. exact Ee. }
    split; [|exists c3; split; assumption]. unfold static_value. rewrite Hc3. apply eeq_sym. exact E.
  Qed.

  Lemma static_ssco splits inverted alpha l :
    inverted = false -> (l = None \/ exists q, l = Some q /\ (q == 0)%Q) ->
    nested_unimodal (map (fun u => (0, u)) (g_bounds p)) (static_value (obj 1) (g_tend p)) ->
    (exists y, feasible_config (g_bounds p) y /\ is_fin (static_value (obj 1) (g_tend p) y)) ->
    exists xs, static_integral vmerge merge outside splits q inverted alpha l = Ok xs /\ constant (g_tend p) xs /\
      cheapest_within_among 1 (constant (g_tend p)) (obj 1) (g_tend p) (g_bounds p) xs.
  Proof.
    intros -> Hl Hu (y & Hy & Fy).
    destruct (static_integral_spec vmerge merge outside splits q image_hit image_norm static_image_wf static_image_costs) with (alpha := alpha) (l := l)
      as (x & Hrun & Hx & Hmin).
    - eapply nested_unimodal_eeq; [|exact Hu]. intros x Hx. apply feasible_range in Hx. apply eeq_sym. apply (static_image_value splits x Hx).
    - exact Hl.
    - exists y. split; [apply feasible_range; exact Hy|]. eapply is_fin_eeq; [|exact Fy]. apply eeq_sym. apply (static_image_value splits y Hy).
    - apply feasible_range in Hx. change (o_tend q) with (g_tend p) in Hrun. exists (repeat x (Z.to_nat (g_tend p))).
      split; [exact Hrun|]. split; [exists x; reflexivity|]. destruct Hwf as (H1 & H2 & _).
      split; [apply repeat_feasible; auto|].
      destruct (proj2 (static_image_value splits x Hx)) as (c & Hc & Ec). exists c. split; [exact Hc|].
      assert (forall z, feasible_config (g_bounds p) z -> exists d, obj 1 (repeat z (Z.to_nat (g_tend p))) = Ok d /\ ele (c_cost c) (c_cost d)) as HM.
      { intros z Hz. destruct (proj2 (static_image_value splits z Hz)) as (d & Hd & Ed). exists d. split; [exact Hd|].
        rewrite Ec, Ed. apply Hmin. apply feasible_range. exact Hz. }
      split.
      + destruct (HM y Hy) as (d & Hd & Hle). unfold static_value in Fy. rewrite Hd in Fy.
        destruct (c_cost c), (c_cost d); simpl in *; tauto.
      + intros ys Hys (z & Ez). destruct (Z.eq_dec (g_tend p) 0) as [E0|E0].
        * subst ys. rewrite E0. exists c. rewrite E0 in Hc. split; [exact Hc|]. destruct (c_cost c); simpl; [lra|exact I].
        * assert (feasible_config (g_bounds p) z) as Hz.
          { destruct Hys as [_ Hys]. rewrite Forall_forall in Hys. apply Hys. subst ys. destruct (Z.to_nat (g_tend p)) eqn:En; [lia|]. left. reflexivity. }
          destruct (HM z Hz) as (d & Hd & Hle). subst ys. exists d. split; [exact Hd|].
          eapply ele_trans; [exact Hle|]. destruct (c_cost d); simpl; [lra|exact I].
  Qed.
End SSCO.

(** *** SBLO and SLO *)
Lemma sblo_static_value minimize s (p : gsblo Z) T x :
  eeq (static_value (ssco_objective dc_hmerge dc_vmerge OutsideDecisionSpace s (into_ssco valZ minimize p) 1) T x)
      (static_value (sblo_objective_fn minimize s p 1) T x).
Proof.
  unfold static_value. pose proof (image_obj minimize s p 1 (repeat x (Z.to_nat T))) as H.
  destruct (ssco_objective _ _ _ _ _ _ _); destruct (sblo_objective_fn _ _ _ _ _); simpl in H; try contradiction; try apply eeq_refl.
  apply H.
Qed.

Lemma sblo_static minimize s splits o (p : gsblo Z) :
  verify_sblo valZ p = Ok tt ->
  evaluable (sblo_hit valZ minimize p) (b_tend p) (b_bounds p) ->
  let value := static_value (sblo_objective_fn minimize s p 1) (b_tend p) in
  nested_unimodal (map (fun u => (0, u)) (b_bounds p)) value ->
  (exists y, feasible_config (b_bounds p) y /\ is_fin (value y)) ->
  fo_inverted o = false -> (fo_l o = None \/ exists q, fo_l o = Some q /\ (q == 0)%Q) ->
  exists xs c,
    offline_solve (sblo_ops minimize s) (static_integral_sblo minimize splits o) p = Ok (xs, c) /\
    sblo_objective_fn minimize s p 1 xs = Ok c /\ is_fin (c_cost c) /\ constant (b_tend p) xs /\
    cheapest_among (constant (b_tend p)) (sblo_objective_fn minimize s p 1) (b_tend p) (b_bounds p) xs.
Proof.
  intros HV Hev value Hu (y & Hy & Fy) Hi Hl. apply sblo_verified in HV.
  destruct (static_ssco dc_hmerge dc_vmerge OutsideDecisionSpace s (into_ssco valZ minimize p) (image_wf minimize p HV) (image_ev minimize p Hev)
    splits (fo_inverted o) (fo_alpha o) (fo_l o) Hi Hl) as (xs & Hrun & Hconst & Hmin).
  - eapply nested_unimodal_eeq; [|exact Hu]. intros x _. apply eeq_sym, sblo_static_value.
  - exists y. split; [exact Hy|]. eapply is_fin_eeq; [apply eeq_sym, sblo_static_value|exact Fy].
  - destruct (sblo_solve_with minimize s p HV Hev (static_integral_sblo minimize splits o) 1 1 (constant (b_tend p)) xs Hrun Hmin) as (c & H1 & H2 & H3 & H4).
    exists xs, c. do 3 (split; [assumption|]). split; [exact Hconst|]. apply cheapest_of_within_1. exact H4.
Qed.

Lemma slo_static minimize s splits o (p : gslo Z) :
  verify_slo valZ p = Ok tt -> Z.of_nat (length (l_hitting p)) = l_d p -> solver_reports minimize ->
  evaluable (sblo_hit valZ minimize (into_sblo p)) (l_tend p) (l_bounds p) ->
  let value := static_value (sblo_objective_fn minimize s (into_sblo p) 1) (l_tend p) in
  nested_unimodal (map (fun u => (0, u)) (l_bounds p)) value ->
  (exists y, feasible_config (l_bounds p) y /\ is_fin (value y)) ->
  fo_inverted o = false -> (fo_l o = None \/ exists q, fo_l o = Some q /\ (q == 0)%Q) ->
  exists xs c,
    offline_solve (slo_ops s) (static_integral_slo minimize splits o) p = Ok (xs, c) /\
    slo_objective_fn s p 1 xs = Ok c /\ is_fin (c_cost c) /\ constant (l_tend p) xs /\ covers p xs /\
    cheapest_among (fun ys => constant (l_tend p) ys /\ assignable minimize p ys) (slo_objective_fn s p 1) (l_tend p) (l_bounds p) xs.
Proof.
  intros HV Hh Hsol Hev value Hu Hy Hi Hl. assert (HV' := HV). apply slo_verified in HV'; [|exact Hh].
  destruct (sblo_static minimize s splits o (into_sblo p)) as (xs & c & Hrun & _ & _ & Hconst & Hopt); auto.
  { apply sblo_verified. apply slo_image_wf. exact HV'. }
  assert (HR : static_integral_slo minimize splits o p = Ok xs).
  { unfold offline_solve in Hrun. apply obind_inv in Hrun as (u & _ & Hrun). apply obind_inv in Hrun as (ys & Hys & Hrun).
    apply obind_inv in Hrun as (d & _ & Hrun). assert (ys = xs) by congruence. subst ys. exact Hys. }
  destruct (slo_solve_among minimize s p HV' Hh Hsol Hev (static_integral_slo minimize splits o) 1 1 (constant (l_tend p)) xs HR
    (cheapest_within_1 _ _ _ _ _ Hopt)) as (c1 & H1 & H2 & H3 & H4 & H5 & H6).
  exists xs, c1. do 5 (split; [assumption|]). apply cheapest_of_within_1. exact H6.
Qed.

(** *** A single type of servers *)
Lemma total_cost_mono {X} (f : Z -> X -> ext) (sw : X -> X -> Q) x y (P : Z -> Prop) :
  (forall t, P t -> ele (f t x) (f t y)) -> (sw x x <= sw y y)%Q ->
  forall n t prev prev', (forall i, 0 <= i < Z.of_nat n -> P (t + i)) -> (sw prev x <= sw prev' y)%Q ->
  ele (total_cost f sw 1 t prev (repeat x n)) (total_cost f sw 1 t prev' (repeat y n)).
Proof.
  intros Hf Hsw. induction n as [|n IH]; intros t prev prev' HP H0; cbn [repeat total_cost]; [apply ele_refl|].
  assert (ele (total_cost f sw 1 (t + 1) x (repeat x n)) (total_cost f sw 1 (t + 1) y (repeat y n))) as H.
  { apply IH; [|exact Hsw]. intros i Hi. replace (t + 1 + i) with (t + (i + 1)) by lia. apply HP. lia. }
  assert (ele (f t x) (f t y)) as Hft. { apply Hf. replace t with (t + 0) by lia. apply HP. lia. }
  destruct (f t x), (f t y), (total_cost f sw 1 (t + 1) x (repeat x n)), (total_cost f sw 1 (t + 1) y (repeat y n));
    simpl in *; try contradiction; auto. lra.
Qed.

Lemma total_cost_inf {X} (f : Z -> X -> ext) (sw : X -> X -> Q) x : forall n t prev,
  total_cost f sw 1 t prev (repeat x n) = Inf -> exists i, 0 <= i < Z.of_nat n /\ f (t + i) x = Inf.
Proof.
  induction n as [|n IH]; intros t prev; cbn [repeat total_cost]; [discriminate|]. intros H.
  destruct (f t x) eqn:E; [|exists 0; rewrite Z.add_0_r; split; [lia|exact E]].
  destruct (total_cost f sw 1 (t + 1) x (repeat x n)) eqn:E2; [discriminate|].
  apply IH in E2 as (i & Hi & Hf). exists (i + 1). split; [lia|]. replace (t + (i + 1)) with (t + 1 + i) by lia. exact Hf.
Qed.
Lemma total_cost_inf_conv {X} (f : Z -> X -> ext) (sw : X -> X -> Q) x : forall n t prev i,
  0 <= i < Z.of_nat n -> f (t + i) x = Inf -> total_cost f sw 1 t prev (repeat x n) = Inf.
Proof.
  induction n as [|n IH]; intros t prev i Hi H; [lia|]. cbn [repeat total_cost].
  destruct (Z.eq_dec i 0) as [->|Hne].
  - rewrite Z.add_0_r in H. rewrite H. reflexivity.
  - rewrite (IH (t + 1) x (i - 1)) by (try lia; replace (t + 1 + (i - 1)) with (t + i) by lia; exact H).
    destruct (f t x); reflexivity.
Qed.

Section Single.
  Variable minimize :
    (list Q -> outcome ext) -> list (Q * Q) -> list Q -> list (list Q -> outcome Q) -> option (list Q * ext).
  Variable s : split.
  Variable p : gslo Z.
  Hypothesis Hwf : well_formed_slo valZ p.
  Hypothesis Hd : l_d p = 1.
  Hypothesis Hh : Z.of_nat (length (l_hitting p)) = l_d p.
  Hypothesis Hsol : solver_reports minimize.
  Hypothesis Hev : evaluable (sblo_hit valZ minimize (into_sblo p)) (l_tend p) (l_bounds p).

  Definition unit_cost : Q := nth 0 (l_hitting p) 0%Q.
  Definition single_cost (t : Z) (x : list Z) : ext := c_cost (hit_of OutsideDecisionSpace (slo_hit valZ p) t x).

  Lemma single_form x : feasible_config (l_bounds p) x -> exists j, x = [j] /\ 0 <= j.
  Proof.
    intros Hx. destruct (slo_shape p Hwf x Hx) as [Hlen H0]. rewrite Hd in Hlen. destruct x as [|j [|? ?]]; simpl in Hlen; try lia.
    exists j. split; [reflexivity|]. inversion H0; subst. assumption.
  Qed.
  Lemma single_cost_value t j : 1 <= t <= l_tend p -> feasible_config (l_bounds p) [j] -> exists l, access (l_load p) t = Some l /\
    (if j <? l then single_cost t [j] = Inf else eeq (single_cost t [j]) (Fin (unit_cost * inject_Z j))).
  Proof.
    intros Ht Hx. destruct (slo_load p Hwf t Ht) as (l & Hl & _). destruct (slo_shape p Hwf [j] Hx) as [Hlen _].
    exists l. split; [exact Hl|]. unfold single_cost, hit_of. rewrite (slo_value valZ p t [j] l ltac:(lia) Hh Hlen Hl).
    assert (config_total valZ [j] == inject_Z j)%Q as E by (unfold config_total; cbn; ring).
    destruct (Z.ltb_spec j l) as [L|L].
    - assert (Qltb (config_total valZ [j]) (v_toQ valZ l) = true) as ->.
      { apply Qltb_iff. rewrite E. cbn. rewrite <- Zlt_Qlt. exact L. }
      reflexivity.
    - assert (Qltb (config_total valZ [j]) (v_toQ valZ l) = false) as ->.
      { destruct (Qltb (config_total valZ [j]) (v_toQ valZ l)) eqn:EQ; [|reflexivity]. apply Qltb_iff in EQ. rewrite E in EQ. cbn in EQ. rewrite <- Zlt_Qlt in EQ. lia. }
      cbn [c_cost]. rewrite Hd. change (Z.to_nat 1) with 1%nat. cbn [seq map Qsum nth v_toQ valZ]. unfold unit_cost. simpl. ring.
  Qed.
  Lemma unit_cost_pos : (0 <= unit_cost)%Q.
  Proof.
    destruct Hwf as (_ & Hpos & _). unfold unit_cost. destruct (l_hitting p); simpl; [lra|]. inversion Hpos; subst. lra.
  Qed.

  (** The value of the image is the value in SLO. *)
  Lemma single_value j : feasible_config (l_bounds p) [j] ->
    eeq (static_value (sblo_objective_fn minimize s (into_sblo p) 1) (l_tend p) [j])
        (total_cost single_cost (switching (l_switching p) false) 1 1 (repeat 0 (Z.to_nat (l_d p))) (repeat [j] (Z.to_nat (l_tend p)))).
  Proof.
    intros Hx. assert (0 <= l_tend p) as HT by (destruct Hwf as ((_ & H & _) & _); exact H).
    pose proof (repeat_feasible (l_tend p) _ [j] HT Hx) as Hfs.
    destruct (image_objective minimize s p Hwf Hev 1 _ Hfs) as (c & Hc & Ec). unfold static_value. rewrite Hc. rewrite Ec.
    apply total_cost_at. intros i x Hi. destruct (slot_of p _ i x Hfs Hi) as [Ht Hf].
    apply nth_error_In, repeat_spec in Hi. subst x.
    destruct (Hev _ _ Ht Hx) as (d & Hdd). destruct (single_cost_value _ j Ht Hx) as (l & Hl & HV).
    unfold hit_of at 1. rewrite Hdd.
    destruct (Z.ltb_spec j l) as [L|L].
    - rewrite HV. destruct (c_cost d) eqn:Ed; [|exact I]. exfalso.
      destruct (finite_agrees minimize p Hwf Hh Hsol _ [j] d Ht Hx Hdd) as [_ Hcov]; [rewrite Ed; exact I|].
      specialize (Hcov l Hl). simpl in Hcov. rewrite Qplus_0_r, <- Zle_Qle in Hcov. lia.
    - destruct (slo_shape p Hwf [j] Hx) as [Hlen H0]. destruct (slo_load p Hwf _ Ht) as (l' & Hl' & Hl0). assert (l' = l) by congruence. subst l'.
      assert (is_fin (c_cost d)) as Fd.
      { apply (single_assignable minimize p (1 + Z.of_nat i) [j] d l); auto; [lia|]. simpl. rewrite Qplus_0_r, <- Zle_Qle. lia. }
      destruct (finite_agrees minimize p Hwf Hh Hsol _ [j] d Ht Hx Hdd Fd) as [E _]. unfold hit_of at 1 in E. rewrite Hdd in E. exact E.
  Qed.

  Lemma single_unimodal :
    nested_unimodal (map (fun u => (0, u)) (l_bounds p)) (static_value (sblo_objective_fn minimize s (into_sblo p) 1) (l_tend p)).
  Proof.
    intros prefix a b c r r' Habc Ha Hc. apply feasible_range in Ha, Hc.
    destruct (single_form _ Ha) as (a' & Ea & Ha0). destruct (single_form _ Hc) as (c' & Ec & Hc0).
    assert (prefix = []) as ->. { destruct prefix as [|? [|? ?]]; [reflexivity|discriminate|discriminate]. }
    cbn [app] in *. assert (a' = a) by congruence. assert (r = []) by congruence. assert (c' = c) by congruence. assert (r' = []) by congruence. subst.
    assert (feasible_config (l_bounds p) [b]) as Hb.
    { inversion Hc as [|u cc us rr Hu Hus]; subst. inversion Hus; subst. constructor; [lia|constructor]. }
    exists []. split; [apply feasible_range; exact Hb|]. cbn [app].
    pose proof (single_value a Ha) as Va. pose proof (single_value b Hb) as Vb. pose proof (single_value c Hc) as Vc.
    rewrite Vb. set (f := fun j => total_cost single_cost (switching (l_switching p) false) 1 1 (repeat 0 (Z.to_nat (l_d p))) (repeat [j] (Z.to_nat (l_tend p)))) in *.
    change (ele (f b) (emax (static_value (sblo_objective_fn minimize s (into_sblo p) 1) (l_tend p) [a]) (static_value (sblo_objective_fn minimize s (into_sblo p) 1) (l_tend p) [c]))).
    change (eeq (static_value (sblo_objective_fn minimize s (into_sblo p) 1) (l_tend p) [a]) (f a)) in Va.
    change (eeq (static_value (sblo_objective_fn minimize s (into_sblo p) 1) (l_tend p) [c]) (f c)) in Vc.
    revert Va Vc. generalize (static_value (sblo_objective_fn minimize s (into_sblo p) 1) (l_tend p) [a]) (static_value (sblo_objective_fn minimize s (into_sblo p) 1) (l_tend p) [c]).
    intros ja jc Va Vc.
    destruct (f b) as [qb|] eqn:Fb.
    - (* finite: not dearer than [c] *)
      assert (ele (f b) (f c)) as L.
      { unfold f. apply (total_cost_mono _ _ _ _ (fun t => 1 <= t <= l_tend p)).
        - intros t Ht. destruct (single_cost_value t b Ht Hb) as (l & Hl & HB). destruct (single_cost_value t c Ht Hc) as (l' & Hl' & HC).
          assert (l' = l) by congruence. subst l'. destruct (Z.ltb_spec c l); [rewrite HC; destruct (single_cost t [b]); exact I|].
          destruct (Z.ltb_spec b l) as [Lb|Lb].
          + exfalso. assert (f b = Inf) as Fi; [|congruence]. unfold f. apply (total_cost_inf_conv _ _ _ _ _ _ (t - 1)); [lia|].
            replace (1 + (t - 1)) with t by lia. exact HB.
          + rewrite HB, HC. simpl. pose proof unit_cost_pos. assert (inject_Z b <= inject_Z c)%Q by (rewrite <- Zle_Qle; lia). nra.
        - destruct (l_switching p) as [|w ws]; simpl; [lra|]. rewrite !Z.sub_diag. simpl. lra.
        - intros i Hi. lia.
        - rewrite Hd. change (Z.to_nat 1) with 1%nat. cbn [repeat].
          assert (Forall (fun b => 0 < b)%Q (l_switching p)) as Hsw by (destruct Hwf as ((_ & _ & _ & _ & _ & H) & _); exact H).
          destruct (l_switching p) as [|w ws]; simpl; [lra|]. inversion Hsw; subst.
          rewrite !Z.max_r by lia. assert (inject_Z (b - 0) <= inject_Z (c - 0))%Q by (rewrite <- Zle_Qle; lia). destruct ws; simpl; nra. }
      rewrite <- Fb. destruct (emax_cases ja jc) as [[-> Hm]|[-> _]]; [|rewrite Vc; exact L].
      eapply ele_trans; [|exact Hm]. rewrite Vc. exact L.
    - assert (f a = Inf) as Fa.
      { unfold f in Fb. apply total_cost_inf in Fb as (i & Hi & Hinf). unfold f. apply (total_cost_inf_conv _ _ _ _ _ _ i Hi).
        assert (1 <= 1 + i <= l_tend p) as Ht by lia.
        destruct (single_cost_value _ b Ht Hb) as (l & Hl & HB). destruct (single_cost_value _ a Ht Ha) as (l' & Hl' & HA).
        assert (l' = l) by congruence. subst l'. destruct (Z.ltb_spec b l); [|rewrite Hinf in HB; destruct HB].
        destruct (Z.ltb_spec a l); [exact HA|lia]. }
      rewrite Fa in Va. destruct ja; [destruct Va|]. unfold emax. destruct jc; simpl; exact I.
  Qed.
End Single.

Lemma slo_static_single minimize s splits o (p : gslo Z) :
  verify_slo valZ p = Ok tt -> l_d p = 1 -> Z.of_nat (length (l_hitting p)) = 1 -> solver_reports minimize ->
  evaluable (sblo_hit valZ minimize (into_sblo p)) (l_tend p) (l_bounds p) ->
  (forall t l, 1 <= t <= l_tend p -> access (l_load p) t = Some l -> l <= hd 0 (l_bounds p)) ->
  fo_inverted o = false -> (fo_l o = None \/ exists q, fo_l o = Some q /\ (q == 0)%Q) ->
  exists xs c,
    offline_solve (slo_ops s) (static_integral_slo minimize splits o) p = Ok (xs, c) /\
    slo_objective_fn s p 1 xs = Ok c /\ is_fin (c_cost c) /\ constant (l_tend p) xs /\ covers p xs /\
    cheapest_among (constant (l_tend p)) (slo_objective_fn s p 1) (l_tend p) (l_bounds p) xs.
Proof.
  intros HV Hd Hh1 Hsol Hev Hload Hi Hl. assert (Hh : Z.of_nat (length (l_hitting p)) = l_d p) by lia.
  assert (HV' := HV). apply slo_verified in HV'; [|exact Hh].
  assert (Hb : feasible_config (l_bounds p) (l_bounds p)).
  { apply full_feasible. destruct HV' as ((_ & _ & _ & _ & Hpos & _) & _). eapply Forall_impl; [|exact Hpos].
    intros u Hu. unfold is_positive in Hu. cbn in Hu. change 0%Q with (inject_Z 0) in Hu. rewrite <- Zlt_Qlt in Hu. lia. }
  destruct (slo_static minimize s splits o p HV Hh Hsol Hev) as (xs & c & H1 & H2 & H3 & H4 & H5 & H6); auto.
  - apply single_unimodal; auto.
  - exists (l_bounds p). split; [exact Hb|]. destruct (single_form p HV' Hd _ Hb) as (u & Eu & _). rewrite Eu in Hb, Hload |- *. cbn [hd] in Hload.
    eapply is_fin_eeq; [apply eeq_sym, single_value; auto; rewrite Eu; exact Hb|].
    destruct (total_cost _ _ _ _ _ _) eqn:E; [exact I|]. exfalso. apply total_cost_inf in E as (i & Hii & Hinf).
    assert (1 <= 1 + i <= l_tend p) as Ht by lia.
    destruct (single_cost_value p HV' Hd Hh _ u Ht ltac:(rewrite Eu; exact Hb)) as (l & Hll & HB). specialize (Hload _ l Ht Hll).
    destruct (Z.ltb_spec u l); [lia|]. rewrite Hinf in HB. destruct HB.
  - exists xs, c. do 5 (split; [assumption|]).
    destruct H6 as (Hf & c1 & Hc1 & Hf1 & Hmin). split; [exact Hf|]. exists c1. split; [exact Hc1|]. split; [exact Hf1|].
    intros ys Hy Hcy. destruct (slo_objective_total s p HV' Hh 1 ys Hy) as (c2 & Hc2 & E2).
    destruct (c_cost c2) as [q|] eqn:Eq.
    + apply Hmin; [exact Hy|]. split; [exact Hcy|]. intros i x Hix. destruct (slot_of p ys i x Hy Hix) as [Ht Hx].
      destruct (Hev _ _ Ht Hx) as (d & Hd1). rewrite Z.add_comm. exists d. split; [exact Hd1|].
      assert (HF : is_fin (Fin q)) by exact I. apply (is_fin_eeq _ _ E2) in HF.
      pose proof (total_cost_finite _ _ _ _ _ _ HF i x Hix) as HFi. cbv beta in HFi.
      destruct (slo_load p HV' _ Ht) as (l & Hl1 & Hl0). destruct (slo_shape p HV' x Hx) as [Hlen Hx0].
      apply (single_assignable minimize p (1 + Z.of_nat i) x d l); auto; [lia|].
      unfold hit_of in HFi. rewrite (slo_value valZ p _ x l ltac:(lia) Hh Hlen Hl1) in HFi.
      destruct (Qltb (config_total valZ x) (v_toQ valZ l)) eqn:EQ; [destruct HFi|]. apply Qltb_false in EQ. exact EQ.
    + exists c2. split; [exact Hc2|]. rewrite Eq. destruct (c_cost c1); exact I.
Qed.

Lemma sblo_static_rejects minimize s splits o (p : gsblo Z) :
  let r := offline_solve (sblo_ops minimize s) (static_integral_sblo minimize splits o) p in
  (~ well_formed_sblo valZ p -> r = Err Invalid) /\
  (well_formed_sblo valZ p -> fo_inverted o = true -> r = Err UnsupportedInvertedCost) /\
  (well_formed_sblo valZ p -> fo_inverted o = false -> forall l, fo_l o = Some l -> ~ (l == 0)%Q -> r = Err UnsupportedLConstrainedMovement).
Proof.
  intros r. unfold r, offline_solve. cbn [sblo_ops po_verify po_objective].
  destruct (sblo_verified Z valZ p) as [Hiff Hor]. split; [|split].
  - intros Hn. destruct Hor as [H|H]; [destruct Hn; apply Hiff; exact H|]. rewrite H. reflexivity.
  - intros Hwf Hi. rewrite (proj2 Hiff Hwf). cbn [obind]. unfold static_integral_sblo, static_integral. rewrite Hi. reflexivity.
  - intros Hwf Hi l Hl Hne. rewrite (proj2 Hiff Hwf). cbn [obind]. unfold static_integral_sblo, static_integral. rewrite Hi, Hl.
    destruct (Qeq_bool l 0) eqn:E; [apply Qeq_bool_iff in E; contradiction|]. reflexivity.
Qed.

Lemma slo_static_options minimize s splits (p : gslo Z) :
  verify_slo valZ p = Ok tt -> l_d p = 1 -> Z.of_nat (length (l_hitting p)) = 1 -> solver_reports minimize ->
  evaluable (sblo_hit valZ minimize (into_sblo p)) (l_tend p) (l_bounds p) ->
  (forall t l, 1 <= t <= l_tend p -> access (l_load p) t = Some l -> l <= hd 0 (l_bounds p)) ->
  let solve o := offline_solve (slo_ops s) (static_integral_slo minimize splits o) p in
  (exists xs c, solve default_options = Ok (xs, c)) /\
  (forall alpha, exists xs c, solve (alpha_unfair alpha) = Ok (xs, c)) /\
  solve inverted_options = Err UnsupportedInvertedCost /\
  (forall l, ~ (l == 0)%Q -> solve (l_constrained l) = Err UnsupportedLConstrainedMovement).
Proof.
  intros HV Hd Hh Hsol Hev Hload solve.
  assert (forall o, fo_inverted o = false -> fo_l o = None -> exists xs c, solve o = Ok (xs, c)) as H.
  { intros o Hi Hl. destruct (slo_static_single minimize s splits o p HV Hd Hh Hsol Hev Hload Hi (or_introl Hl)) as (xs & c & H & _). eauto. }
  split; [apply H; reflexivity|]. split; [intros; apply H; reflexivity|].
  unfold solve, offline_solve. cbn [slo_ops po_verify]. rewrite HV. cbn [obind]. split; [reflexivity|].
  intros l Hl. unfold static_integral_slo, static_integral_sblo, static_integral. cbn [l_constrained fo_inverted fo_l].
  destruct (Qeq_bool l 0) eqn:E; [apply Qeq_bool_iff in E; contradiction|]. reflexivity.
Qed.
