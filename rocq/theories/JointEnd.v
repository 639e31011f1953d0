(** Configurations and the division of the load are optimised together. *)
From Coq Require Import Lia Lqa Setoid.
From Verif Require Import NumLemmas CostSpec CostProofs ConvertProofs VerifySpec VerifyProofs ObjectiveSpec ObjectiveProofs DataCenterParts DataCenterProofs DataCenterInstances
  ApproxRatioProofs GraphSearchSpec OutputSpec OptimizeProofs OfflineSpec OfflineProofs OfflineEnd JointSpec JointSolver JointSlot.
From Verif Require Import ProblemModel CostModel.
Local Open Scope Z_scope.

Section Joint.
  Variables (powf : Q -> Q -> Q) (m : data_center) (price : location -> Z -> Q) (power : server_type -> Q -> Q)
    (revenue : job_type -> Q * Q) (l : location) (caps : list Z) (betas : list Q).
  Hypothesis HC : center powf m price power revenue l caps betas.
  Variable minimize : (list Q -> outcome ext) -> list (Q * Q) -> list Q -> list (list Q -> outcome Q) -> option (list Q * ext).
  Hypothesis HM : forall t q x, (0 <= q)%Q -> feasible_config caps x -> balances powf m t q x minimize.
  Variable loads : list Q.
  Hypothesis HLoads : Forall (fun q => 0 <= q)%Q loads.

  Let K := length (dc_server_types m).
  Let profiles := map (fun q => [q]) loads.
  Notation running := (running_cost m price power revenue l).
  Notation operating := (operating_cost m price power revenue l betas).
  Notation tells := (told m price power revenue l).
  Notation energy := (energy_part m price power l).
  Notation lost := (revenue_part m revenue l).

  Lemma joint_generated : exists p, to_ssco powf m valZ (fun z => z) minimize profiles = Ok p /\
    g_bounds p = caps /\ g_switching p = betas /\ g_d p = Z.of_nat K /\ g_tend p = Z.of_nat (length loads) /\
    verify_ssco valZ p = Ok tt.
  Proof.
    assert (EB : generate_bounds m (fun z => z) = Ok caps).
    { unfold generate_bounds. rewrite (center_d _ _ _ _ _ _ _ _ HC). fold K.
      assert (G : forall sts cs n, Forall2 (fun st c => lookup (lo_m l) (st_key st) = Ok c /\ 0 < c) sts cs ->
        (forall k st, nth_error sts k = Some st -> nth_error (dc_server_types m) (n + k) = Some st) ->
        omap (fun k_ => do jk <- parse (length (dc_server_types m)) k_; do l <- index (dc_locations m) (fst jk);
          do st <- index (dc_server_types m) (snd jk); do b <- lookup (lo_m l) (st_key st); Ok b) (seq n (length sts)) = Ok cs).
      { induction sts as [|st sts IH]; intros cs n HF Hn; inversion HF as [|? c ? cs' [H1 H2] HF']; subst; [reflexivity|].
        cbn [length seq omap]. pose proof (Hn 0%nat st eq_refl) as E0. rewrite Nat.add_0_r in E0.
        assert (Hlt : (n < length (dc_server_types m))%nat) by (apply nth_error_Some; congruence).
        assert (EP : parse (length (dc_server_types m)) n = Ok (0%nat, n)).
        { unfold parse. destruct (length (dc_server_types m)) as [|len] eqn:E; [lia|]. rewrite Nat.div_small by lia. f_equal. f_equal. lia. }
        rewrite EP. cbn [obind fst snd]. unfold index at 1 2. rewrite (ct_location _ _ _ _ _ _ _ _ HC), E0. cbn [nth_error from_option obind]. rewrite H1. cbn [obind].
        rewrite (ct_location _ _ _ _ _ _ _ _ HC) in IH. rewrite (IH cs' (S n) HF'); [reflexivity|].
        intros k st' Hk. rewrite Nat.add_succ_comm. apply Hn. exact Hk. }
      apply (G _ _ 0%nat (ct_caps _ _ _ _ _ _ _ _ HC)). intros k st H. exact H. }
    assert (ES : switching_costs (dc_switching m) (dc_server_types m) = Ok betas).
    { unfold switching_costs. generalize (ct_betas _ _ _ _ _ _ _ _ HC). generalize betas, (dc_server_types m).
      intros bs sts H. induction H as [|st b sts bs (s & E & -> & _) _ IH]; [reflexivity|]. cbn [omap]. rewrite E. cbn [obind]. rewrite IH. reflexivity. }
    unfold to_ssco. rewrite EB, ES. cbn [obind]. eexists. split; [reflexivity|]. cbn [g_bounds g_switching g_d g_tend].
    split; [reflexivity|]. split; [reflexivity|]. split; [rewrite (center_d _ _ _ _ _ _ _ _ HC); reflexivity|]. split; [unfold profiles; rewrite map_length; reflexivity|].
    match goal with |- verify_ssco valZ ?p = _ => pose proof (ssco_generated powf m Z valZ (fun z => z) minimize profiles p) as G end.
    destruct G as (_ & _ & _ & _ & _ & _ & V & _); [intros; reflexivity|unfold to_ssco; rewrite EB, ES; reflexivity|].
    apply V. split; [rewrite (ct_location _ _ _ _ _ _ _ _ HC); reflexivity|]. split; [exact (ct_types _ _ _ _ _ _ _ _ HC)|]. split.
    - intros l' st c Hl Hst Hc. rewrite (ct_location _ _ _ _ _ _ _ _ HC) in Hl. destruct Hl as [<-|[]].
      generalize (ct_caps _ _ _ _ _ _ _ _ HC). revert Hst. generalize caps, (dc_server_types m).
      intros cs sts Hst H. induction H as [|st' c' sts cs [E1 E2] _ IH]; [destruct Hst|]. destruct Hst as [->|Hst]; [congruence|auto].
    - intros st c Hst Hc. generalize (ct_betas _ _ _ _ _ _ _ _ HC). revert Hst. generalize betas, (dc_server_types m).
      intros bs sts Hst H. induction H as [|st' b sts bs (s & E & -> & Hp) _ IH]; [destruct Hst|]. destruct Hst as [->|Hst]; [|auto].
      assert (s = c) by congruence. subst. exact Hp.
  Qed.

  Variable p : gssco Z dc_success dc_failure.
  Hypothesis Hgen : to_ssco powf m valZ (fun z => z) minimize profiles = Ok p.
  Hypothesis HB : g_bounds p = caps.
  Hypothesis HS : g_switching p = betas.
  Hypothesis Hd : g_d p = Z.of_nat K.
  Hypothesis HT : g_tend p = Z.of_nat (length loads).
  Hypothesis HV : verify_ssco valZ p = Ok tt.

  Lemma slot_of t : 1 <= t <= g_tend p -> exists q, nth_error loads (Z.to_nat (t - 1)) = Some q /\ (0 <= q)%Q.
  Proof.
    intros Ht. destruct (nth_error loads (Z.to_nat (t - 1))) as [q|] eqn:E.
    - exists q. split; [reflexivity|]. rewrite Forall_forall in HLoads. apply HLoads. eapply nth_error_In. exact E.
    - apply nth_error_None in E. lia.
  Qed.

  Lemma joint_hit t x q : 1 <= t -> nth_error loads (Z.to_nat (t - 1)) = Some q -> feasible_config caps x ->
    exists c, gssco_hit valZ dc_vmerge OutsideDecisionSpace p t x = Ok c /\
      ((exists ss, division K ss /\ processes m x q ss /\ eeq (c_cost c) (Fin (running t x q ss)) /\ tells t q x ss (c_out c)) \/ c_cost c = Inf) /\
      (forall ss, division K ss -> processes m x q ss -> ele (c_cost c) (Fin (running t x q ss))).
  Proof.
    intros Ht Hq Hx. assert (Hq0 : (0 <= q)%Q) by (rewrite Forall_forall in HLoads; apply HLoads; eapply nth_error_In; exact Hq).
    destruct (slot_value powf m price power revenue l caps betas HC t q x Hq0 Hx minimize (HM t q x Hq0 Hx)) as (c & Ec & H1 & H2).
    rewrite gssco_hit_inside; [|reflexivity|rewrite HB; apply feasible_box; exact Hx].
    assert (Hcall : call_certain (g_cost p) t x = Ok c).
    { rewrite (ssco_costs powf m valZ (fun z => z) minimize profiles p t x [q] Hgen Ht); [exact Ec|]. unfold profiles. rewrite nth_error_map, Hq. reflexivity. }
    pose proof Hgen as Hg. unfold to_ssco in Hg. apply obind_Ok in Hg as (bs & _ & Hg). apply obind_Ok in Hg as (sw & _ & Hg). injection Hg as Ep.
    rewrite <- Ep in Hcall |- *. cbn [g_cost] in *. unfold apply_loads_over_time in *.
    match goal with |- context [call_mean dc_vmerge (cf_new 1 (certain ?f)) t x] =>
      pose proof (certain_call_mean dc_vmerge f t x Ht) as HMean; rewrite (certain_call_certain f t x Ht) in Hcall; cbv beta in HMean, Hcall; rewrite Hcall in HMean end.
    destruct (call_mean dc_vmerge _ t x) as [c'|e|]; cbn [outcome_rel] in HMean; try contradiction.
    exists c'. split; [reflexivity|]. destruct HMean as [Ecc Eco]. split.
    - destruct H1 as [(ss & D & P & E & TO)|E]; [left|right].
      + exists ss. split; [exact D|]. split; [exact P|]. split; [eapply eeq_trans; [exact Ecc|exact E]|]. rewrite Eco. exact TO.
      + rewrite E in Ecc. destruct (c_cost c'); [contradiction|reflexivity].
    - intros ss D P. eapply ele_trans; [apply eeq_ele; exact Ecc|]. apply H2; assumption.
  Qed.

  Lemma joint_evaluable : evaluable (gssco_hit valZ dc_vmerge OutsideDecisionSpace p) (g_tend p) (g_bounds p).
  Proof.
    intros t x Ht Hx. destruct (slot_of t Ht) as (q & Hq & _). rewrite HB in Hx. destruct (joint_hit t x q ltac:(lia) Hq Hx) as (c & E & _). eauto.
  Qed.

  Lemma caps_feasible : feasible_config caps caps.
  Proof.
    pose proof (ct_caps _ _ _ _ _ _ _ _ HC) as H. revert H. generalize (dc_server_types m). generalize caps. intros cs sts H.
    induction H as [|st c sts cs [_ Hc] _ IH]; constructor; [lia|exact IH].
  Qed.

  Lemma joint_capacity : Forall (manageable m caps) loads -> capacity_suffices (gssco_hit valZ dc_vmerge OutsideDecisionSpace p) (g_tend p) (g_bounds p).
  Proof.
    intros Hman t Ht. destruct (slot_of t Ht) as (q & Hq & _). rewrite HB.
    destruct (joint_hit t caps q ltac:(lia) Hq caps_feasible) as (c & E & _ & H). exists c. split; [exact E|].
    rewrite Forall_forall in Hman. destruct (Hman q (nth_error_In _ _ Hq)) as (ss & D & P). specialize (H ss D P).
    destruct (c_cost c); [exact I|contradiction].
  Qed.

  Notation cost_at := (restricted (g_bounds p) (fun t x => c_cost (s_hit (search_view dc_vmerge OutsideDecisionSpace p) t x))).

  Notation out_at t x := (c_out (s_hit (search_view dc_vmerge OutsideDecisionSpace p) t x)).

  Lemma cost_at_slot t x q : 1 <= t <= g_tend p -> nth_error loads (Z.to_nat (t - 1)) = Some q -> feasible_config caps x ->
    ((exists ss, division K ss /\ processes m x q ss /\ eeq (cost_at t x) (Fin (running t x q ss)) /\ tells t q x ss (out_at t x)) \/ cost_at t x = Inf) /\
    (forall ss, division K ss -> processes m x q ss -> ele (cost_at t x) (Fin (running t x q ss))).
  Proof.
    intros Ht Hq Hx. destruct (joint_hit t x q ltac:(lia) Hq Hx) as (c & E & H1 & H2).
    assert (EC : cost_at t x = c_cost c /\ out_at t x = c_out c).
    { rewrite <- HB in Hx. pose proof (hit_view dc_vmerge OutsideDecisionSpace p joint_evaluable t x Ht Hx) as EV. rewrite E in EV.
      assert (EV' : s_hit (search_view dc_vmerge OutsideDecisionSpace p) t x = c) by congruence.
      unfold restricted. rewrite (inside_feasible (g_bounds p) x Hx), EV'. auto. }
    destruct EC as [-> ->]. split; assumption.
  Qed.

  (** Every plan costs at least the value of its configurations ... *)
  Lemma plan_lower alpha pre suf plan prev : loads = pre ++ suf -> operable m caps suf plan ->
    ele (total_cost cost_at (switching betas false) alpha (1 + Z.of_nat (length pre)) prev (map fst plan))
        (Fin (operating alpha (1 + Z.of_nat (length pre)) prev suf plan)).
  Proof.
    intros EL HO. revert pre prev EL. induction HO as [|q [x ss] suf plan (Hx & D & P) HO IH]; intros pre prev EL; cbn [map total_cost operating_cost fst]; [apply ele_refl|].
    cbn [fst snd] in *. assert (HN : nth_error loads (Z.to_nat (1 + Z.of_nat (length pre) - 1)) = Some q).
    { rewrite EL. replace (Z.to_nat (1 + Z.of_nat (length pre) - 1)) with (length pre) by lia. rewrite nth_error_app2, Nat.sub_diag by lia. reflexivity. }
    assert (HR : 1 <= 1 + Z.of_nat (length pre) <= g_tend p) by (rewrite HT, EL, app_length; cbn [length]; lia).
    destruct (cost_at_slot _ x q HR HN Hx) as [_ H]. specialize (H ss D P).
    specialize (IH (pre ++ [q]) x). rewrite <- app_assoc in IH. specialize (IH EL). rewrite app_length in IH. cbn [length] in IH.
    replace (1 + Z.of_nat (length pre + 1)) with (1 + Z.of_nat (length pre) + 1) in IH by lia.
    cbn [switching]. destruct (cost_at _ x) as [a|]; [|contradiction]. cbn [ele] in H.
    destruct (total_cost _ _ _ _ x (map fst plan)) as [b|]; [|contradiction]. cbn [ele] in IH. cbn [eadd ele]. lra.
  Qed.

  (** ... and some plan attains it and is the one reported. *)
  Lemma plan_attains pre suf xs : loads = pre ++ suf -> length xs = length suf -> Forall (feasible_config caps) xs ->
    (forall i x, nth_error xs i = Some x -> is_fin (cost_at (1 + Z.of_nat (length pre) + Z.of_nat i) x)) ->
    exists plan os, map fst plan = xs /\ operable m caps suf plan /\
      (forall alpha prev, eeq (total_cost cost_at (switching betas false) alpha (1 + Z.of_nat (length pre)) prev xs)
        (Fin (operating alpha (1 + Z.of_nat (length pre)) prev suf plan))) /\
      length os = length xs /\
      (forall i x o, nth_error xs i = Some x -> nth_error os i = Some o -> out_at (1 + Z.of_nat (length pre) + Z.of_nat i) x = MSuccess o) /\
      eeq (DataCenterSpec.esum (map ds_energy os)) (Fin (over_slots energy (1 + Z.of_nat (length pre)) suf plan)) /\
      eeq (DataCenterSpec.esum (map ds_revenue os)) (Fin (over_slots lost (1 + Z.of_nat (length pre)) suf plan)) /\
      Forall2 (fun qs a => (0 < fst qs)%Q -> a = [removelast (snd qs)]) (combine suf (map snd plan)) (concat (map ds_assign os)).
  Proof.
    revert pre xs. induction suf as [|q suf IH]; intros pre xs EL Hlen HF Hfin; destruct xs as [|x xs]; try discriminate Hlen.
    - exists [], []. split; [reflexivity|]. split; [constructor|]. split; [intros; reflexivity|]. split; [reflexivity|]. split; [intros [|i] ? ? H; discriminate H|].
      split; [reflexivity|]. split; [reflexivity|constructor].
    - assert (HN : nth_error loads (Z.to_nat (1 + Z.of_nat (length pre) - 1)) = Some q).
      { rewrite EL. replace (Z.to_nat (1 + Z.of_nat (length pre) - 1)) with (length pre) by lia. rewrite nth_error_app2, Nat.sub_diag by lia. reflexivity. }
      assert (HR : 1 <= 1 + Z.of_nat (length pre) <= g_tend p) by (rewrite HT, EL, app_length; cbn [length]; lia).
      destruct (cost_at_slot _ x q HR HN (Forall_inv HF)) as [[(ss & D & P & E & e & r & z & TO & Te & Tr & Tz)|E] _].
      2:{ exfalso. specialize (Hfin 0%nat x eq_refl). rewrite Z.add_0_r, E in Hfin. exact Hfin. }
      destruct (IH (pre ++ [q]) xs) as (plan & os & E1 & HO & E2 & O1 & O2 & O3 & O4 & O5).
      { rewrite <- app_assoc. exact EL. }
      { simpl in Hlen. lia. }
      { exact (Forall_inv_tail HF). }
      { intros i y Hi. specialize (Hfin (S i) y Hi). rewrite app_length. cbn [length].
        replace (1 + Z.of_nat (length pre + 1) + Z.of_nat i) with (1 + Z.of_nat (length pre) + Z.of_nat (S i)) by lia. exact Hfin. }
      rewrite app_length in E2, O2, O3, O4. cbn [length] in E2, O2, O3, O4.
      replace (1 + Z.of_nat (length pre + 1)) with (1 + Z.of_nat (length pre) + 1) in E2, O2, O3, O4 by lia.
      exists ((x, ss) :: plan), (mkDCS (Fin e) (Fin r) [[z]] :: os). split; [cbn [map fst]; rewrite E1; reflexivity|]. split.
      { constructor; [|exact HO]. cbn [fst snd]. split; [exact (Forall_inv HF)|]. split; assumption. }
      split; [|split; [|split; [|split; [|split]]]].
      + intros alpha prev. specialize (E2 alpha x).
        cbn [total_cost operating_cost switching]. destruct (cost_at _ x) as [a|]; [|contradiction]. cbn [eeq] in E.
        destruct (total_cost _ _ _ _ x xs) as [b|]; [|contradiction]. cbn [eeq] in E2. cbn [eadd eeq]. lra.
      + cbn [length]. congruence.
      + intros [|i] y o Hy Ho; cbn [nth_error] in Hy, Ho.
        * injection Hy as <-. injection Ho as <-. rewrite Z.add_0_r. exact TO.
        * replace (1 + Z.of_nat (length pre) + Z.of_nat (S i)) with (1 + Z.of_nat (length pre) + 1 + Z.of_nat i) by lia. eapply O2; eassumption.
      + cbn [map over_slots ds_energy DataCenterSpec.esum fold_right]. fold (DataCenterSpec.esum (map ds_energy os)).
        destruct (DataCenterSpec.esum (map ds_energy os)) as [b|]; [|contradiction]. cbn [eeq eadd] in *. rewrite Te, O3. reflexivity.
      + cbn [map over_slots ds_revenue DataCenterSpec.esum fold_right]. fold (DataCenterSpec.esum (map ds_revenue os)).
        destruct (DataCenterSpec.esum (map ds_revenue os)) as [b|]; [|contradiction]. cbn [eeq eadd] in *. rewrite Tr, O4. reflexivity.
      + cbn [map snd combine concat ds_assign app]. constructor; [|exact O5]. cbn [fst snd]. intros Hpos. rewrite (Tz Hpos). reflexivity.
  Qed.

  Lemma total_fin {X} (f : Z -> X -> ext) sw a xs : forall t prev, is_fin (total_cost f sw a t prev xs) ->
    forall i x, nth_error xs i = Some x -> is_fin (f (t + Z.of_nat i) x).
  Proof.
    induction xs as [|y xs IH]; intros t prev H [|i] x Hi; try discriminate; cbn [total_cost] in H.
    - injection Hi as ->. rewrite Z.add_0_r. destruct (f t x); [exact I|exact H].
    - replace (t + Z.of_nat (S i)) with (t + 1 + Z.of_nat i) by lia. apply (IH (t + 1) y); [|exact Hi].
      destruct (total_cost f sw a (t + 1) y xs); [exact I|]. destruct (f t y); exact H.
  Qed.

  Lemma plan_schedule plan : operable m caps loads plan -> feasible_schedule (g_tend p) (g_bounds p) (map fst plan).
  Proof.
    intros HO. split.
    - rewrite map_length, HT, <- (Forall2_len _ _ _ HO). reflexivity.
    - rewrite HB. clear -HO. induction HO as [|? ? ? ? (H & _)]; cbn [map]; constructor; auto.
  Qed.

  (** *** Outputs *)
  Definition same_report (a b : dc_success) : Prop := eeq (ds_energy a) (ds_energy b) /\ eeq (ds_revenue a) (ds_revenue b) /\ ds_assign a = ds_assign b.
  Lemma same_report_equiv : Equivalence same_report.
  Proof.
    split.
    - intros a. repeat split; reflexivity.
    - intros a b (H1 & H2 & H3). repeat split; symmetry; assumption.
    - intros a b c (H1 & H2 & H3) (H4 & H5 & H6). split; [eapply eeq_trans; eassumption|]. split; [eapply eeq_trans; eassumption|congruence].
  Qed.
  Lemma hmerge_proper : Proper (same_report ==> same_report ==> same_report) dc_hmerge.
  Proof.
    intros a a' (H1 & H2 & H3) b b' (H4 & H5 & H6). unfold same_report. cbn [dc_hmerge ds_energy ds_revenue ds_assign].
    split; [rewrite H1, H4; reflexivity|]. split; [rewrite H2, H5; reflexivity|congruence].
  Qed.

  Lemma all_success {C D} (os : list C) : first_failure (map (@MSuccess C D) os) = None /\ successes (map (@MSuccess C D) os) = os.
  Proof. induction os as [|o os [IH1 IH2]]; [split; reflexivity|]. cbn. rewrite IH2. auto. Qed.

  Lemma reported_out s alpha xs os c : feasible_schedule (g_tend p) (g_bounds p) xs -> xs <> [] ->
    ssco_objective dc_hmerge dc_vmerge OutsideDecisionSpace s p alpha xs = Ok c -> length os = length xs ->
    (forall i x o, nth_error xs i = Some x -> nth_error os i = Some o -> out_at (1 + Z.of_nat i) x = MSuccess o) ->
    exists o, c_out c = MSuccess o /\ eeq (ds_energy o) (DataCenterSpec.esum (map ds_energy os)) /\
      eeq (ds_revenue o) (DataCenterSpec.esum (map ds_revenue os)) /\ ds_assign o = concat (map ds_assign os).
  Proof.
    intros Hfeas Hne Hc Hlen HO. pose proof (proj1 (proj1 (ssco_verified Z _ _ valZ p)) HV) as HW.
    rewrite (objective_view dc_vmerge OutsideDecisionSpace p HW joint_evaluable dc_hmerge s alpha xs Hfeas) in Hc. injection Hc as Ec.
    match type of Ec with objective_with_default _ _ ?P ?ys ?x0 ?a ?i ?T = _ =>
      destruct (objective_independent dc_hmerge same_report same_report_equiv hmerge_proper hmerge_assoc s s P ys x0 a i T) as (_ & _ & HS') end.
    cbv zeta in HS'. rewrite Ec in HS'.
    match type of HS' with context [map ?f (zrange 1 ?T)] => assert (EM : map f (zrange 1 T) = map MSuccess os) end.
    { change (s_tend (search_view dc_vmerge OutsideDecisionSpace p)) with (g_tend p). destruct Hfeas as [Hl HF].
      apply nth_ext with (d := MNone) (d' := MNone).
      - rewrite !map_length, zrange_length. lia.
      - intros i Hi. rewrite map_length, zrange_length in Hi. unfold zrange. rewrite map_map.
        rewrite (LoadProofs.nth_map_seq (fun x => if p_tend (ssco_problem OutsideDecisionSpace (search_view dc_vmerge OutsideDecisionSpace p)) <? 1 + Z.of_nat x then MNone
           else c_out (p_hit (ssco_problem OutsideDecisionSpace (search_view dc_vmerge OutsideDecisionSpace p)) (1 + Z.of_nat x) (get_or xs (zero_config (s_d (search_view dc_vmerge OutsideDecisionSpace p))) (1 + Z.of_nat x))))) by exact Hi.
        cbn [ssco_problem p_tend p_hit]. change (s_tend (search_view dc_vmerge OutsideDecisionSpace p)) with (g_tend p).
        rewrite (proj2 (Z.ltb_ge (g_tend p) (1 + Z.of_nat i))) by lia.
        assert (Hi' : (i < length xs)%nat) by lia. destruct (nth_error xs i) as [x|] eqn:Ex; [|apply nth_error_None in Ex; lia].
        assert (EG : get_or xs (zero_config (s_d (search_view dc_vmerge OutsideDecisionSpace p))) (1 + Z.of_nat i) = x).
        { unfold get_or, access. rewrite (proj2 (Z.leb_le 1 (1 + Z.of_nat i))), (proj2 (Z.leb_le (1 + Z.of_nat i) (Z.of_nat (length xs)))) by lia.
          cbn [andb]. replace (Z.to_nat (1 + Z.of_nat i - 1)) with i by lia. rewrite Ex. reflexivity. }
        rewrite EG, view_inside by (rewrite Forall_forall in HF; apply HF; eapply nth_error_In; exact Ex).
        destruct (nth_error os i) as [o|] eqn:Eo; [|apply nth_error_None in Eo; lia].
        rewrite (HO i x o Ex Eo). symmetry. apply nth_error_nth. rewrite nth_error_map, Eo. reflexivity. }
    rewrite EM in HS'. unfold combined in HS'. destruct (all_success (D := dc_failure) os) as [-> EA] in HS'. rewrite EA in HS'.
    destruct os as [|o0 os]; [destruct xs; [congruence|discriminate]|].
    destruct (c_out c) as [| |] eqn:EO; cbn [same_output] in HS'; try contradiction.
    destruct HS' as (R1 & R2 & R3). destruct (merged_sum os o0) as (M1 & M2 & M3). cbv zeta in *.
    eexists. split; [reflexivity|]. split; [eapply eeq_trans; [exact R1|exact M1]|]. split; [eapply eeq_trans; [exact R2|exact M2]|].
    rewrite R3, M3. reflexivity.
  Qed.

  Lemma joint_solved s sched (o : offline_options) : loads <> [] -> Forall (manageable m caps) loads -> (0 <= fo_alpha o)%Q -> fo_l o = None ->
    exists plan c out,
      offline_solve (ssco_ops valZ dc_hmerge dc_vmerge OutsideDecisionSpace s) (optimal_search_ssco dc_vmerge OutsideDecisionSpace sched o) p = Ok (map fst plan, c) /\
      operable m caps loads plan /\
      eeq (c_cost c) (Fin (operating 1 1 (repeat 0 K) loads plan)) /\
      (forall plan', operable m caps loads plan' -> (operating (fo_alpha o) 1 (repeat 0%Z K) loads plan <= operating (fo_alpha o) 1 (repeat 0%Z K) loads plan')%Q) /\
      c_out c = MSuccess out /\ eeq (ds_energy out) (Fin (over_slots energy 1 loads plan)) /\ eeq (ds_revenue out) (Fin (over_slots lost 1 loads plan)) /\
      Forall2 (fun qs a => (0 < fst qs)%Q -> a = [removelast (snd qs)]) (combine loads (map snd plan)) (ds_assign out).
  Proof.
    intros Hne Hman Ha Hl.
    assert (HT1 : 1 <= g_tend p) by (rewrite HT; destruct loads; [congruence|cbn [length]; lia]).
    destruct (ssco_solved dc_hmerge dc_vmerge OutsideDecisionSpace s sched o p HV HT1 joint_evaluable (joint_capacity Hman) Ha Hl)
      as (xs & c & Hrun & Hc & Hfin & Hfeas & c1 & Hc1 & Hfin1 & Hbest).
    pose proof (proj1 (proj1 (ssco_verified Z _ _ valZ p)) HV) as HW.
    assert (EZ : zero_config (s_d (search_view dc_vmerge OutsideDecisionSpace p)) = repeat 0 K).
    { unfold zero_config. cbn [search_view s_d]. rewrite Hd, Nat2Z.id. reflexivity. }
    assert (EO : forall alpha ys, feasible_schedule (g_tend p) (g_bounds p) ys -> exists c', ssco_objective dc_hmerge dc_vmerge OutsideDecisionSpace s p alpha ys = Ok c' /\
        eeq (c_cost c') (total_cost cost_at (switching betas false) alpha 1 (repeat 0 K) ys)).
    { intros alpha ys Hy. destruct (objective_cost dc_vmerge OutsideDecisionSpace p HW joint_evaluable dc_hmerge s alpha ys Hy) as (c' & E1 & E2).
      exists c'. split; [exact E1|]. unfold schedule_cost in E2. rewrite EZ in E2. cbn [search_view s_switching s_bounds] in E2. rewrite HS in E2. exact E2. }
    destruct (EO 1%Q xs Hfeas) as (c' & E1 & E2). assert (c' = c) by congruence. subst c'.
    destruct (EO (fo_alpha o) xs Hfeas) as (c' & E3 & E4). assert (c' = c1) by congruence. subst c'.
    pose proof Hfeas as [Hlen HF]. rewrite HB in HF.
    destruct (plan_attains [] loads xs eq_refl) as (plan & os & EP & HO & HA & O1 & O2 & O3 & O4 & O5).
    { rewrite HT in Hlen. lia. }
    { exact HF. }
    { intros i x Hi. cbn [length]. rewrite Z.add_0_r. eapply total_fin; [|exact Hi]. eapply is_fin_eeq; [exact E2|exact Hfin]. }
    cbn [length] in HA, O2, O3, O4. rewrite Z.add_0_r in HA, O2, O3, O4.
    destruct (reported_out s 1 xs os c Hfeas) as (out & R1 & R2 & R3 & R4).
    { intros ->. cbn [length] in Hlen. lia. }
    { exact Hc. }
    { exact O1. }
    { exact O2. }
    exists plan, c, out. split; [rewrite EP; exact Hrun|]. split; [exact HO|]. split; [eapply eeq_trans; [exact E2|apply HA]|].
    split; [|split; [exact R1|split; [eapply eeq_trans; [exact R2|exact O3]|split; [eapply eeq_trans; [exact R3|exact O4]|rewrite R4; exact O5]]]].
    intros plan' HO'. destruct (Hbest (map fst plan') (plan_schedule plan' HO') I) as (c2 & E5 & L).
    destruct (EO (fo_alpha o) (map fst plan') (plan_schedule plan' HO')) as (c' & E6 & E7). assert (c' = c2) by congruence. subst c'.
    pose proof (plan_lower (fo_alpha o) [] loads plan' (repeat 0 K) eq_refl HO') as HLow. cbn [length] in HLow. rewrite Z.add_0_r in HLow.
    assert (ele (Fin (operating (fo_alpha o) 1 (repeat 0 K) loads plan)) (Fin (operating (fo_alpha o) 1 (repeat 0 K) loads plan'))) as R; [|exact R].
    eapply ele_trans; [apply eeq_ele; apply eeq_sym; exact (HA (fo_alpha o) (repeat 0 K))|].
    eapply ele_trans; [apply eeq_ele, eeq_sym; exact E4|]. eapply ele_trans; [exact L|]. eapply ele_trans; [apply eeq_ele; exact E7|exact HLow].
  Qed.
End Joint.

Lemma joint_generic powf m price power revenue l caps betas minimize loads s sched (o : offline_options) :
  center powf m price power revenue l caps betas ->
  (forall t q x, (0 <= q)%Q -> feasible_config caps x -> balances powf m t q x minimize) ->
  loads <> [] -> Forall (fun q => 0 <= q)%Q loads -> Forall (manageable m caps) loads -> (0 <= fo_alpha o)%Q -> fo_l o = None ->
  let zeros := repeat 0 (length (dc_server_types m)) in
  exists p plan c out,
    to_ssco powf m valZ (fun z => z) minimize (map (fun q => [q]) loads) = Ok p /\
    offline_solve (ssco_ops valZ dc_hmerge dc_vmerge OutsideDecisionSpace s) (optimal_search_ssco dc_vmerge OutsideDecisionSpace sched o) p = Ok (map fst plan, c) /\
    operable m caps loads plan /\
    eeq (c_cost c) (Fin (operating_cost m price power revenue l betas 1 1 zeros loads plan)) /\
    (forall plan', operable m caps loads plan' ->
      (operating_cost m price power revenue l betas (fo_alpha o) 1 zeros loads plan <=
       operating_cost m price power revenue l betas (fo_alpha o) 1 zeros loads plan')%Q) /\
    c_out c = MSuccess out /\
    eeq (ds_energy out) (Fin (over_slots (energy_part m price power l) 1 loads plan)) /\
    eeq (ds_revenue out) (Fin (over_slots (revenue_part m revenue l) 1 loads plan)) /\
    Forall2 (fun qs a => (0 < fst qs)%Q -> a = [removelast (snd qs)]) (combine loads (map snd plan)) (ds_assign out).
Proof.
  intros HC HM Hne Hpos Hman Ha Hl zeros.
  destruct (joint_generated powf m price power revenue l caps betas HC minimize loads) as (p & Hgen & HB & HS & Hd & HT & HV).
  destruct (joint_solved powf m price power revenue l caps betas HC minimize HM loads Hpos p Hgen HB HS Hd HT HV s sched o Hne Hman Ha Hl) as (plan & c & out & H).
  exists p, plan, c, out. split; [exact Hgen|exact H].
Qed.

Lemma joint_careful powf m price power revenue l caps betas nlopt loads s sched (o : offline_options) :
  center powf m price power revenue l caps betas -> careful_nlopt nlopt ->
  loads <> [] -> Forall (fun q => 0 <= q)%Q loads -> Forall (manageable m caps) loads -> (0 <= fo_alpha o)%Q -> fo_l o = None ->
  let zeros := repeat 0 (length (dc_server_types m)) in
  exists p plan c out,
    to_ssco powf m valZ (fun z => z) (load_minimize nlopt) (map (fun q => [q]) loads) = Ok p /\
    offline_solve (ssco_ops valZ dc_hmerge dc_vmerge OutsideDecisionSpace s) (optimal_search_ssco dc_vmerge OutsideDecisionSpace sched o) p = Ok (map fst plan, c) /\
    operable m caps loads plan /\
    eeq (c_cost c) (Fin (operating_cost m price power revenue l betas 1 1 zeros loads plan)) /\
    (forall plan', operable m caps loads plan' ->
      (operating_cost m price power revenue l betas (fo_alpha o) 1 zeros loads plan <=
       operating_cost m price power revenue l betas (fo_alpha o) 1 zeros loads plan')%Q) /\
    c_out c = MSuccess out /\
    eeq (ds_energy out) (Fin (over_slots (energy_part m price power l) 1 loads plan)) /\
    eeq (ds_revenue out) (Fin (over_slots (revenue_part m revenue l) 1 loads plan)) /\
    Forall2 (fun qs a => (0 < fst qs)%Q -> a = [removelast (snd qs)]) (combine loads (map snd plan)) (ds_assign out).
Proof.
  intros HC HN. apply joint_generic; [exact HC|]. intros t q x Hq Hx. exact (careful_slot powf m price power revenue l caps betas HC t q x Hq Hx nlopt HN).
Qed.

Lemma joint_two powf m price power revenue l caps betas nlopt loads s sched (o : offline_options) :
  center powf m price power revenue l caps betas -> length (dc_server_types m) = 2%nat -> exact_nlopt nlopt ->
  loads <> [] -> Forall (fun q => 0 <= q)%Q loads -> Forall (manageable m caps) loads -> (0 <= fo_alpha o)%Q -> fo_l o = None ->
  let zeros := repeat 0 (length (dc_server_types m)) in
  exists p plan c out,
    to_ssco powf m valZ (fun z => z) (load_minimize nlopt) (map (fun q => [q]) loads) = Ok p /\
    offline_solve (ssco_ops valZ dc_hmerge dc_vmerge OutsideDecisionSpace s) (optimal_search_ssco dc_vmerge OutsideDecisionSpace sched o) p = Ok (map fst plan, c) /\
    operable m caps loads plan /\
    eeq (c_cost c) (Fin (operating_cost m price power revenue l betas 1 1 zeros loads plan)) /\
    (forall plan', operable m caps loads plan' ->
      (operating_cost m price power revenue l betas (fo_alpha o) 1 zeros loads plan <=
       operating_cost m price power revenue l betas (fo_alpha o) 1 zeros loads plan')%Q) /\
    c_out c = MSuccess out /\
    eeq (ds_energy out) (Fin (over_slots (energy_part m price power l) 1 loads plan)) /\
    eeq (ds_revenue out) (Fin (over_slots (revenue_part m revenue l) 1 loads plan)) /\
    Forall2 (fun qs a => (0 < fst qs)%Q -> a = [removelast (snd qs)]) (combine loads (map snd plan)) (ds_assign out).
Proof.
  intros HC H2 HN. apply joint_generic; [exact HC|]. intros t q x Hq Hx. exact (two_slot powf m price power revenue l caps betas HC t q x Hq Hx nlopt H2 HN).
Qed.

(** The cost of a configuration in a slot. *)
Lemma joint_slot powf m price power revenue l caps betas nlopt t q x :
  center powf m price power revenue l caps betas -> careful_nlopt nlopt -> (0 <= q)%Q -> feasible_config caps x ->
  exists c, apply_loads valZ (load_minimize nlopt) (dc_d m) (dc_e m) (dc_objective_of powf m valZ) [q] t x = Ok c /\
    let splits ss := division (length (dc_server_types m)) ss /\ processes m x q ss in
    (is_fin (c_cost c) <-> exists ss, splits ss) /\
    (is_fin (c_cost c) -> exists ss, splits ss /\ eeq (c_cost c) (Fin (running_cost m price power revenue l t x q ss))) /\
    (forall ss, splits ss -> ele (c_cost c) (Fin (running_cost m price power revenue l t x q ss))).
Proof.
  intros HC HN Hq Hx.
  destruct (slot_value powf m price power revenue l caps betas HC t q x Hq Hx _ (careful_slot powf m price power revenue l caps betas HC t q x Hq Hx nlopt HN)) as (c & E & H1 & H2).
  exists c. split; [exact E|]. cbv zeta. split; [|split].
  - split.
    + intros Hf. destruct H1 as [(ss & D & P & _)|H1]; [exists ss; auto|]. rewrite H1 in Hf. destruct Hf.
    + intros (ss & D & P). specialize (H2 ss D P). destruct (c_cost c); [exact I|contradiction].
  - intros Hf. destruct H1 as [(ss & D & P & EQ & _)|H1]; [exists ss; auto|]. rewrite H1 in Hf. destruct Hf.
  - intros ss [D P]. auto.
Qed.
