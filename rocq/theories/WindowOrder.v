(** Proofs: the offline optima of one problem are ordered. *)
From Coq Require Import Lia Lqa Qabs.
From Verif Require Import NumLemmas CostSpec CostProofs VerifySpec VerifyProofs OptimizeModel OptimizeSpec OptimizeProofs HorizonModel HorizonSpec HorizonProofs
  StaticModel StaticSpec StaticProofs GraphSearchSpec ConvertSpec ConvertProofs ConvertObjective ObjectiveProofs OfflineSpec OfflineProofs OfflineEnd OfflineEndLoads OfflineStatic
  WindowModel WindowSpec WindowProofs WindowEnd.
From Verif Require Import ProblemModel CostModel.
Local Open Scope Z_scope.

(** ** SSCO instances as SCO instances *)
Section Image.
  Context {C D : Type}.
  Variable vmerge : C -> C -> outcome C.
  Variable outside : D.
  Variable q : gssco Q C D.
  Hypothesis Hwf : well_formed_ssco valQ q.
  Hypothesis Hc : fractional_costs vmerge outside q.
  Notation image := (into_sco valQ vmerge outside q).

  Lemma image_verified : verify_sco image = Ok tt.
  Proof.
    apply sco_verified. destruct Hwf as (H1 & H2 & H3 & _). repeat split; cbn [into_sco o_d o_tend o_bounds]; auto.
    rewrite map_length. exact H3.
  Qed.

  Lemma image_aligned : Forall hundredths (g_bounds q) -> aligned (o_bounds image).
  Proof.
    intros HB. cbn [into_sco o_bounds]. change (v_zero valQ) with 0%Q. apply aligned_pairs.
    destruct Hwf as (_ & _ & _ & _ & H & _). rewrite Forall_forall in *. intros u Hu. split; [auto|].
    specialize (H u Hu). unfold is_positive in H. cbn in H. lra.
  Qed.

  Lemma image_mean t x : 1 <= t <= g_tend q -> within_bounds (g_bounds q) x ->
    exists c h n, call_mean vmerge (o_cost image) t x = Ok c /\ gssco_hit valQ vmerge outside q t x = Ok h /\
      manhattan_scaled valQ (g_switching q) x = Ok n /\
      eeq (c_cost c) (if t =? g_tend q then eadd (c_cost h) (Fin n) else c_cost h).
  Proof.
    intros Ht Hx. destruct (fc_hit _ _ _ Hc t x Ht Hx) as (h & Hh).
    destruct Hwf as (_ & _ & H3 & H4 & _).
    destruct (manhattan_total valQ (g_switching q) x) as (n & Hn).
    { apply within_bounds_pairs, in_boxQ_length in Hx. rewrite map_length in Hx. lia. }
    cbn [into_sco o_cost].
    pose proof (certain_call_mean vmerge (fun t x =>
       if t =? g_tend q then
         do hitting_cost <- gssco_hit valQ vmerge outside q t x;
         do m <- manhattan_scaled valQ (g_switching q) x;
         Ok (mkCost (eadd (c_cost hitting_cost) (Fin m)) (c_out hitting_cost))
       else gssco_hit valQ vmerge outside q t x) t x ltac:(lia)) as HR.
    cbv beta in HR. rewrite Hh, Hn in HR. cbn [obind] in HR.
    match type of HR with outcome_rel _ ?a _ => destruct a as [c| |] eqn:E end;
      [|destruct (t =? g_tend q); contradiction|destruct (t =? g_tend q); contradiction].
    exists c, h, n. split; [reflexivity|]. split; [exact Hh|]. split; [exact Hn|].
    destruct (t =? g_tend q); destruct HR as [HR _]; exact HR.
  Qed.

  Lemma manhattan_comp : forall sw x y a b, Forall2 Qeq x y -> manhattan_scaled valQ sw x = Ok a -> manhattan_scaled valQ sw y = Ok b -> (a == b)%Q.
  Proof.
    induction sw as [|c sw IH]; intros x y a b E Ha Hb; destruct E as [|i j x y Eij E]; cbn in Ha, Hb; try discriminate;
      try (injection Ha as <-; injection Hb as <-; reflexivity).
    apply obind_Ok in Ha as (a' & Ha & Ea). apply obind_Ok in Hb as (b' & Hb & Eb). injection Ea as <-. injection Eb as <-.
    rewrite (IH x y a' b' E Ha Hb), Eij. reflexivity.
  Qed.

  Lemma image_computable : computable vmerge image.
  Proof.
    assert (forall x, in_boxQ (o_bounds image) x -> within_bounds (g_bounds q) x) as HW.
    { intros x Hx. apply within_bounds_pairs. exact Hx. }
    constructor.
    - intros t x Ht Hx. destruct (image_mean t x Ht (HW x Hx)) as (c & _ & _ & E & _). exists c. exact E.
    - intros t x y Ht Hx E. assert (Hy : in_boxQ (o_bounds image) y) by (eapply in_box_eq; eassumption).
      destruct (image_mean t x Ht (HW x Hx)) as (c & h & n & -> & Eh & En & Ec).
      destruct (image_mean t y Ht (HW y Hy)) as (c' & h' & n' & -> & Eh' & En' & Ec'). cbn [cost_of]. rewrite Ec, Ec'.
      pose proof (fc_eq _ _ _ Hc t x y Ht (HW x Hx) E) as EH. rewrite Eh, Eh' in EH. cbn [cost_of] in EH.
      pose proof (manhattan_comp _ _ _ _ _ E En En') as EN.
      destruct (t =? g_tend q); [|exact EH]. apply eadd_proper; [exact EH|exact EN].
    - intros x L. cbn [into_sco o_norm]. destruct Hwf as (_ & _ & H3 & H4 & _). apply manhattan_total.
      cbn [into_sco o_bounds] in L. rewrite map_length in L. lia.
    - intros x y a b L E Ha Hb. exact (manhattan_comp _ _ _ _ _ E Ha Hb).
  Qed.

  (** The objective of the image is the objective of the instance. *)
  Lemma image_objective (merge : C -> C -> C) s xs a : Forall (within_bounds (g_bounds q)) xs ->
    sco_objective valQ merge vmerge outside s image 1 xs = Ok a ->
    exists b, objective_o merge s (gssco_problem valQ vmerge outside q) xs (gzero valQ (g_d q)) 1 false (g_tend q) = Ok b /\ eeq (c_cost a) (c_cost b).
  Proof.
    intros HF Ha. destruct Hwf as (_ & _ & H3 & H4 & _).
    refine (rel_right _ _ a (into_sco_objective valQ vmerge merge outside q xs s valQ_lawful _ _) Ha); [lia|].
    eapply Forall_impl; [|exact HF]. intros x Hx. apply within_bounds_pairs, in_boxQ_length in Hx. rewrite map_length in Hx. lia.
  Qed.
End Image.

(** ** Integral schedules are fractional ones *)
Section Same.
  Context {C D : Type}.
  Variable vmerge : C -> C -> outcome C.
  Variable merge : C -> C -> C.
  Variable outside : D.
  Variable p : gssco Z C D.
  Variable q : gssco Q C D.
  Hypothesis Hwf : well_formed_ssco valZ p.
  Hypothesis Hev : evaluable (gssco_hit valZ vmerge outside p) (g_tend p) (g_bounds p).
  Hypothesis HS : same_problem vmerge outside p q.
  Hypothesis Hc : fractional_costs vmerge outside q.

  Lemma same_wf : well_formed_ssco valQ q.
  Proof.
    destruct HS as [E1 E2 E3 E4 _]. destruct Hwf as (H1 & H2 & H3 & H4 & H5 & H6). unfold well_formed_ssco, well_formed_base.
    rewrite E1, E2, E3, E4, map_length. repeat split; auto. apply Forall_map. exact H5.
  Qed.

  Lemma same_hundredths : Forall hundredths (g_bounds q).
  Proof.
    rewrite (sp_bounds _ _ _ _ HS). apply Forall_map. apply Forall_forall. intros z _. exists (z * 100). unfold Qeq, inject_Z. cbn. lia.
  Qed.

  Lemma inject_within x : feasible_config (g_bounds p) x -> within_bounds (g_bounds q) (map inject_Z x).
  Proof.
    rewrite (sp_bounds _ _ _ _ HS). unfold feasible_config, within_bounds. generalize (g_bounds p). clear.
    induction 1 as [|u j us x Hj H IH]; cbn; [constructor|]. constructor; [|exact IH].
    change 0%Q with (inject_Z 0). rewrite <- !Zle_Qle. lia.
  Qed.

  Lemma inject_hundredths x : Forall hundredths (map inject_Z x).
  Proof. apply Forall_map. apply Forall_forall. intros z _. exists (z * 100). unfold Qeq, inject_Z. cbn. lia. Qed.

  Lemma inject_grid x : feasible_config (g_bounds p) x -> grid (o_bounds (into_sco valQ vmerge outside q)) (map inject_Z x).
  Proof. intros Hx. split; [apply within_bounds_pairs, inject_within; exact Hx|apply inject_hundredths]. Qed.

  Lemma movement_inject : forall sw a b inv, scaled_movement_o (v_toQ valQ) sw (map inject_Z a) (map inject_Z b) inv = scaled_movement_o (v_toQ valZ) sw a b inv.
  Proof.
    induction sw as [|c sw IH]; intros [|i a] [|j b] inv; try reflexivity. cbn [map scaled_movement_o]. rewrite IH. reflexivity.
  Qed.

  Definition zmove (a b : list Z) : Q := match gssco_move valZ p a b false with Ok m => m | _ => 0%Q end.
  Definition qmove (a b : list Q) : Q := match gssco_move valQ q a b false with Ok m => m | _ => 0%Q end.

  Lemma moves_total {T} (v : value T) (r : gssco T C D) a b : length a = length b -> length b = length (g_switching r) -> exists m, gssco_move v r a b false = Ok m.
  Proof. intros H1 H2. unfold gssco_move. rewrite scaled_movement_o_total by congruence. eauto. Qed.

  Lemma same_objective s xs : feasible_schedule (g_tend p) (g_bounds p) xs ->
    exists a b, ssco_objective merge vmerge outside s p 1 xs = Ok a /\
      sco_objective valQ merge vmerge outside s (into_sco valQ vmerge outside q) 1 (map (map inject_Z) xs) = Ok b /\
      eeq (c_cost a) (c_cost b).
  Proof.
    intros [HL HF]. pose proof Hwf as Hwf'. destruct Hwf' as (H1 & H2 & H3 & H4 & _). destruct HS as [E1 E2 E3 E4 E5].
    rewrite Forall_forall in HF.
    assert (forall x, In x xs -> length x = length (g_switching p)) as Hlen.
    { intros x Hx. rewrite (feasible_length _ _ (HF x Hx)). lia. }
    destruct (objective_along merge (gssco_problem valZ vmerge outside p) (fun t x => cost_of (gssco_hit valZ vmerge outside p t x)) zmove
                (repeat 0 (Z.to_nat (g_d p))) 1 false s xs) as (a & Ha & Ea).
    - exact HL.
    - intros t x Ht Hx. cbn [gssco_problem op_hit]. destruct (Hev t x Ht (HF x Hx)) as (c & Ec). exists c. rewrite Ec. split; reflexivity.
    - intros x y Hx Hy. cbn [gssco_problem op_move]. unfold zmove.
      destruct (moves_total valZ p x y) as (m & ->); [|apply Hlen; exact Hy|exists m; split; reflexivity].
      rewrite (Hlen y Hy). destruct Hx as [-> | Hx]; [rewrite repeat_length; lia|apply Hlen; exact Hx].
    - destruct (objective_along merge (gssco_problem valQ vmerge outside q) (fun t x => cost_of (gssco_hit valQ vmerge outside q t x)) qmove
                  (repeat 0%Q (Z.to_nat (g_d p))) 1 false s (map (map inject_Z) xs)) as (b & Hb & Eb).
      + rewrite map_length. cbn. rewrite E2. exact HL.
      + intros t x Ht Hx. cbn [gssco_problem op_hit op_tend] in *. apply in_map_iff in Hx as (z & <- & Hz).
        destruct (fc_hit _ _ _ Hc t (map inject_Z z) Ht (inject_within z (HF z Hz))) as (c & Ec). exists c. rewrite Ec. split; reflexivity.
      + intros x y Hx Hy. cbn [gssco_problem op_move]. unfold qmove. apply in_map_iff in Hy as (z & <- & Hz).
        destruct (moves_total valQ q x (map inject_Z z)) as (m & ->); [| |exists m; split; reflexivity].
        * rewrite map_length, (Hlen z Hz). destruct Hx as [-> | Hx]; [rewrite repeat_length; lia|].
          apply in_map_iff in Hx as (z' & <- & Hz'). rewrite map_length. apply Hlen. exact Hz'.
        * rewrite map_length, E4. apply Hlen. exact Hz.
      + change (op_tend (gssco_problem valZ vmerge outside p)) with (g_tend p) in Ha.
        change (op_tend (gssco_problem valQ vmerge outside q)) with (g_tend q) in Hb.
        assert (eeq (c_cost a) (c_cost b)) as Eab.
        { rewrite Ea, Eb.
          assert (forall ys t x0, (forall y, In y ys -> In y xs) -> 1 <= t -> t + Z.of_nat (length ys) <= g_tend p + 1 ->
            eeq (total_cost (fun t x => cost_of (gssco_hit valZ vmerge outside p t x)) zmove 1 t x0 ys)
                (total_cost (fun t x => cost_of (gssco_hit valQ vmerge outside q t x)) qmove 1 t (map inject_Z x0) (map (map inject_Z) ys))) as G.
          { induction ys as [|y ys IH]; intros t x0 Hin Ht Hlast; [reflexivity|]. cbn [map total_cost]. cbn [length] in Hlast.
            apply eadd_proper; [apply eadd_proper|].
            - symmetry. apply E5; [lia|]. apply HF, Hin. left. reflexivity.
            - unfold zmove, qmove, gssco_move. rewrite movement_inject, E4. reflexivity.
            - apply IH; [|lia|lia]. intros y' Hy'. apply Hin. right. exact Hy'. }
          replace (repeat 0%Q (Z.to_nat (g_d p))) with (map inject_Z (repeat 0 (Z.to_nat (g_d p)))).
          - apply G; [auto|lia|lia].
          - generalize (Z.to_nat (g_d p)). induction n as [|n IH]; [reflexivity|]. cbn. rewrite IH. reflexivity. }
        pose proof (into_sco_objective valQ vmerge merge outside q (map (map inject_Z) xs) s valQ_lawful) as HR.
        destruct (rel_left _ _ b (HR ltac:(rewrite E1, E4; lia) ltac:(apply Forall_map, Forall_forall; intros x Hx; rewrite map_length, E1, (Hlen x Hx); lia))) as (b' & Hb' & Ebb).
        { unfold gzero. rewrite E1. exact Hb. }
        exists a, b'. split; [exact Ha|]. split; [exact Hb'|]. rewrite Eab. first [exact Ebb | symmetry; exact Ebb].
  Qed.
End Same.

(** ** Answers of the static integral algorithm *)
Lemma pick_value_from (G : list Z * ext -> Prop) eval : forall js picked r,
  (forall j r, In j js -> eval j = Ok r -> G r) -> G picked -> pick_value eval js picked = Ok r -> G r.
Proof.
  induction js as [|j js IH]; intros picked r He Hp E; cbn [pick_value] in E.
  - injection E as <-. exact Hp.
  - apply obind_Ok in E as (r' & Er & E). assert (G r') by (eapply He; [left; reflexivity|exact Er]).
    assert (forall k r, In k js -> eval k = Ok r -> G r) by (intros k r0 Hk; apply He; right; exact Hk).
    destruct (eltb (snd r') (snd picked)); [apply (IH r' r); assumption|].
    destruct (eltb (snd picked) (snd r')); [injection E as <-; exact Hp|apply (IH picked r); assumption].
Qed.

Lemma config_set_range : forall bounds x k j b y, in_range bounds x -> nth_error bounds k = Some b -> fst b <= j <= snd b ->
  config_set x k j = Ok y -> in_range bounds y.
Proof.
  intros bounds x k j b y Hx. revert k y. induction Hx as [|c i bounds x Hi Hx IH]; intros k y Hk Hj E; [discriminate|].
  destruct k as [|k]; cbn in Hk, E.
  - injection Hk as <-. injection E as <-. constructor; [exact Hj|exact Hx].
  - apply obind_Ok in E as (r & Er & E). injection E as <-. constructor; [exact Hi|]. eapply IH; eassumption.
Qed.

Lemma check_configs_range {C D} vmerge (merge : C -> C -> C) (outside : D) splits p : forall n k base r,
  in_range (o_bounds p) base -> check_configs vmerge merge outside splits p n k base = Ok r -> in_range (o_bounds p) (fst r).
Proof.
  induction n as [|n IH]; intros k base r Hb E; cbn [check_configs] in E.
  - apply obind_Ok in E as (c & _ & E). injection E as <-. exact Hb.
  - apply obind_Ok in E as (b & Eb & E). apply (pick_value_from (fun r => in_range (o_bounds p) (fst r))) in E; [exact E| |exact Hb].
    intros j r' Hj Er. apply obind_Ok in Er as (x & Ex & Er). apply (IH _ _ _) with (2 := Er).
    apply zrange_In in Hj. eapply config_set_range; [exact Hb| |exact Hj|exact Ex].
    destruct (nth_error (o_bounds p) k); [injection Eb as <-; reflexivity|discriminate].
Qed.

Lemma static_answer {C D} vmerge (merge : C -> C -> C) (outside : D) splits p inverted alpha l xs :
  in_range (o_bounds p) (repeat 0 (Z.to_nat (o_d p))) ->
  static_integral vmerge merge outside splits p inverted alpha l = Ok xs ->
  exists x, xs = repeat x (Z.to_nat (o_tend p)) /\ in_range (o_bounds p) x.
Proof.
  intros H0 E. unfold static_integral in E. destruct inverted; [discriminate|].
  destruct (match l with Some q => negb (Qeq_bool q 0) | None => false end); [discriminate|].
  apply obind_Ok in E as (r & Er & E). injection E as <-. exists (fst r). split; [reflexivity|]. eapply check_configs_range; eassumption.
Qed.

(** ** The order *)
Section Order.
  Context {C D : Type}.
  Variable vmerge : C -> C -> outcome C.
  Variable merge : C -> C -> C.
  Variable outside : D.
  Variable nlopt : nl_problem -> outcome nl_result.
  Hypothesis Hex : exact_nlopt nlopt.
  Variable sched : list Q -> split.
  Variable search : Z -> vertice -> split.
  Variable splits : list Z -> split.
  Variable s : split.
  Variable p : gssco Z C D.
  Variable q : gssco Q C D.
  Hypothesis HV : verify_ssco valZ p = Ok tt.
  Hypothesis HT : 1 <= g_tend p.
  Hypothesis Hev : evaluable (gssco_hit valZ vmerge outside p) (g_tend p) (g_bounds p).
  Hypothesis Hcap : capacity_suffices (gssco_hit valZ vmerge outside p) (g_tend p) (g_bounds p).
  Hypothesis HS : same_problem vmerge outside p q.
  Hypothesis Hc : fractional_costs vmerge outside q.

  Theorem ordered_optima :
    let fractional := into_sco valQ vmerge outside q in
    let integral := into_sco valZ vmerge outside p in
    exists xs a ys b zs c,
      offline_solve (sco_ops valQ merge vmerge outside s) (co_solver vmerge merge outside nlopt sched default_options) fractional = Ok (xs, a) /\
      offline_solve (ssco_ops valZ merge vmerge outside s) (optimal_search_ssco vmerge outside search default_options) p = Ok (ys, b) /\
      offline_solve (sco_ops valQ merge vmerge outside s) (static_fractional_solver vmerge merge outside nlopt sched default_options) fractional = Ok (zs, c) /\
      ele (c_cost a) (c_cost b) /\ ele (c_cost a) (c_cost c) /\
      forall ws d, offline_solve (sco_ops valZ merge vmerge outside s)
          (fun r => static_integral vmerge merge outside splits r false 1 None) integral = Ok (ws, d) ->
        ele (c_cost b) (c_cost d) /\ ele (c_cost c) (c_cost d).
  Proof.
    intros fractional integral. pose proof HV as Hwf. apply ssco_verified in Hwf.
    pose proof (same_wf vmerge outside p q Hwf HS) as HwfQ.
    pose proof (image_verified vmerge outside q HwfQ) as HVQ. pose proof (image_computable vmerge outside q HwfQ Hc) as Hcp.
    pose proof (image_aligned vmerge outside q HwfQ (same_hundredths vmerge outside p q HS)) as Hal.
    assert (o_tend fractional = g_tend p) as ET by (exact (sp_slots _ _ _ _ HS)).
    destruct (co_solved vmerge merge outside nlopt Hex sched fractional HVQ Hal Hcp s default_options eq_refl) as (xs & a & Ea & Hxs & Oa & Hbest).
    destruct (ssco_solved merge vmerge outside s search default_options p HV HT Hev Hcap ltac:(cbn; lra) eq_refl) as (ys & b & Eb & Ob & _ & Hch).
    destruct (static_fractional_solved vmerge merge outside nlopt Hex sched fractional HVQ Hal Hcp s default_options eq_refl (or_introl eq_refl)) as (z & c & Ec & Hz & Oc & Hstat).
    exists xs, a, ys, b, (repeat z (Z.to_nat (o_tend fractional))), c. split; [exact Ea|]. split; [exact Eb|]. split; [exact Ec|].
    cbn [default_options fo_l fo_alpha] in Hbest, Hstat.
    destruct Hch as (Hys & b' & Eb' & _ & Hcheap). cbn [default_options fo_alpha] in Eb', Hcheap. assert (b' = b) by congruence. subst b'.
    assert (forall us, grid_schedule (o_tend fractional) (o_bounds fractional) us -> exists u, sco_objective valQ merge vmerge outside s fractional 1 us = Ok u /\ ele (c_cost a) (c_cost u)) as HA.
    { intros us Hus. destruct (Hbest us Hus) as (_ & a' & u & Ea' & Eu & Hle); [discriminate|]. assert (a' = a) by congruence. subst a'. exists u. split; assumption. }
    split; [|split].
    - destruct (same_objective vmerge merge outside p q Hwf Hev HS Hc s ys Hys) as (b1 & b2 & E1 & E2 & E3).
      assert (b1 = b) by congruence. subst b1. destruct (HA (map (map inject_Z) ys)) as (u & Eu & Hle).
      { destruct Hys as [L F]. split; [rewrite map_length, ET; exact L|]. apply Forall_map. eapply Forall_impl; [|exact F]. intros x Hx. apply (inject_grid vmerge outside p q HS). exact Hx. }
      assert (u = b2) by (change (into_sco valQ vmerge outside q) with fractional in E2; congruence). subst u. rewrite E3. exact Hle.
    - destruct (HA (repeat z (Z.to_nat (o_tend fractional)))) as (u & Eu & Hle).
      { split; [rewrite repeat_length, Z2Nat.id; [reflexivity|lia]|]. apply Forall_forall. intros x Hx. apply repeat_spec in Hx. subst. exact Hz. }
      assert (u = c) by congruence. subst u. exact Hle.
    - intros ws d Hd. unfold offline_solve in Hd. apply obind_Ok in Hd as (u1 & _ & Hd). apply obind_Ok in Hd as (ws' & Hws & Hd).
      apply obind_Ok in Hd as (d' & Hobj & Hd). injection Hd as <- <-.
      apply static_answer in Hws.
      2: { apply feasible_range. clear - Hwf. destruct Hwf as (_ & _ & H3 & _ & H5 & _). change (o_d integral) with (g_d p).
           replace (Z.to_nat (g_d p)) with (length (g_bounds p)) by lia. clear H3. unfold feasible_config.
           induction H5 as [|u us Hu H5 IH]; cbn; constructor; [|exact IH]. unfold is_positive in Hu. cbn in Hu. change 0%Q with (inject_Z 0) in Hu. rewrite <- Zlt_Qlt in Hu. lia. }
      destruct Hws as (x & -> & Hx). apply feasible_range in Hx. change (o_tend integral) with (g_tend p) in *.
      assert (feasible_schedule (g_tend p) (g_bounds p) (repeat x (Z.to_nat (g_tend p)))) as Hfs by (apply repeat_feasible; [lia|exact Hx]).
      destruct (same_objective vmerge merge outside p q Hwf Hev HS Hc s _ Hfs) as (d1 & d2 & E1 & E2 & E3).
      assert (eeq (c_cost d') (c_cost d1)) as Ed.
      { cbn [sco_ops po_objective] in Hobj. destruct Hwf as (H1 & H2 & H3 & H4 & _).
        destruct (rel_right _ _ d' (into_sco_objective valZ vmerge merge outside p (repeat x (Z.to_nat (g_tend p))) s valZ_lawful ltac:(lia)
          ltac:(apply Forall_forall; intros y Hy; apply repeat_spec in Hy; subst y; rewrite (feasible_length _ _ Hx); lia)) Hobj) as (d3 & Ed3 & Hd3).
        change (gzero valZ (g_d p)) with (repeat 0 (Z.to_nat (g_d p))) in Ed3. unfold ssco_objective in E1. assert (d3 = d1) by congruence. subst d3. exact Hd3. }
      rewrite Ed. split.
      + destruct (Hcheap _ Hfs I) as (d4 & E4 & Hle). assert (d4 = d1) by congruence. subst d4. exact Hle.
      + destruct (Hstat (map inject_Z x) (inject_grid vmerge outside p q HS x Hx)) as (c' & d4 & Ec' & Ed4 & Hle).
        assert (c' = c) by congruence. subst c'. rewrite ET in Ed4. rewrite E3.
        assert (map (map inject_Z) (repeat x (Z.to_nat (g_tend p))) = repeat (map inject_Z x) (Z.to_nat (g_tend p))) as ER.
        { generalize (Z.to_nat (g_tend p)). induction n as [|n IH]; [reflexivity|]. cbn. rewrite IH. reflexivity. }
        rewrite ER in E2. assert (d4 = d2) by (change (into_sco valQ vmerge outside q) with fractional in E2; congruence). subst d4. exact Hle.
  Qed.
End Order.
