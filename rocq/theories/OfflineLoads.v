(** Proofs about solving offline SBLO and SLO problems. *)
From Coq Require Import Lia Lqa.
From Verif Require Import NumLemmas GraphSearchSpec GraphSearchProofs ObjectiveProofs CostSpec CostProofs
  ConvertProofs ConvertObjective VerifySpec VerifyProofs LoadProofs LoadObjective BudgetSpec BudgetCover OfflineModel OfflineSpec
  OfflineProofs OfflineFail.
From Verif Require Import ProblemModel CostModel.
Local Open Scope Z_scope.

(** *** Values of sums *)
Lemma fold_eadd_esum : forall vs a, eeq (fold_left eadd vs a) (eadd a (esum vs)).
Proof.
  induction vs as [|v vs IH]; intros a; simpl; [symmetry; apply eadd_0_r|].
  rewrite IH. symmetry. apply eadd_assoc.
Qed.

Lemma sum_first_value l vs :
  Forall2 (fun m e => exists o, objective_value m = Some o /\ eeq o e) l vs ->
  exists o, objective_value (sum_first obj_add (Fin 0, Fin 0) l) = Some o /\ eeq o (esum vs).
Proof.
  intros H. destruct H as [|m w r ws Hm Hr]; cbn [sum_first].
  - exists (obj_total (Fin 0, Fin 0)). split; [reflexivity|]. simpl. ring.
  - destruct Hm as (om & Hom & He). destruct m as [[c|f]|f|]; simpl in Hom; try discriminate.
    + simpl. destruct (sum_results_value r c ws Hr) as (o & Ho & E). exists o. split; [exact Ho|].
      rewrite E, fold_eadd_esum. assert (om = obj_total c) by congruence. subst om. rewrite He. reflexivity.
    + simpl. exists Inf. split; [reflexivity|]. assert (om = Inf) by congruence. subst om.
      destruct w; [contradiction|]. exact I.
Qed.

(** *** The image of a SLO instance *)
Section Image.
  Variable p : gslo Z.
  Variable t : Z.
  Variable x : list Z.
  Variable L : Q.
  Hypothesis Ht : 1 <= t.
  Hypothesis Hd : 0 < l_d p.
  Hypothesis Hhit : Z.of_nat (length (l_hitting p)) = l_d p.
  Hypothesis Hx : Z.of_nat (length x) = l_d p.
  Hypothesis Hx0 : Forall (fun j => 0 <= j) x.
  Let n := Z.to_nat (l_d p).

  (** A finite value is the operating cost of the servers. *)
  Lemma image_value zs c :
    sblo_objective valZ (into_sblo p) t x [L] (mkFractions zs n 1) = Ok (ROk c) -> is_fin (obj_total c) ->
    eeq (obj_total c) (Fin (Qsum (map (fun k => nth k (l_hitting p) 0%Q * inject_Z (nth k x 0%Z))%Q (seq 0 n)))).
  Proof.
    intros H Hc. unfold sblo_objective in H. cbn [into_sblo b_d] in H. rewrite Hx, Z.eqb_refl in H.
    cbn [negb] in H. fold n in H.
    pose proof (sum_first_fin _ _ _ H Hc) as HT.
    match type of H with sum_first _ _ (map ?F _) = _ => set (term := F) in H, HT end.
    assert (HK : forall k, (k < n)%nat -> exists o, objective_value (term k) = Some o /\
      eeq o (Fin (nth k (l_hitting p) 0%Q * inject_Z (nth k x 0%Z)))).
    { intros k Hk. destruct (HT _ (in_map term (seq 0 n) k ltac:(apply in_seq; lia))) as (a & Ha & Hf).
      exists (obj_total a). split; [rewrite Ha; reflexivity|]. unfold term in Ha.
      apply obind_inv in Ha as (ls & Hls & Ha). apply obind_inv in Ha as (q & Hq & Ha).
      apply obind_inv in Ha as (xk & Hxk & Ha). apply from_option_inv in Hxk.
      assert (Exk : nth k x 0 = xk) by (apply nth_error_nth with (d := 0) in Hxk; exact Hxk). rewrite Exk.
      assert (Hxk0 : 0 <= xk). { rewrite Forall_forall in Hx0. apply Hx0. eapply nth_error_In, Hxk. }
      unfold safe_balancing in Ha. cbn [valZ v_toQ] in Ha. destruct (Qltb 0 (inject_Z xk)) eqn:E1.
      - apply Qltb_iff in E1.
        destruct (from_option (nth_error (b_cost (into_sblo p)) k)) as [f|?|] eqn:Ef; cbn [obind rbind] in Ha; try discriminate.
        apply from_option_inv in Ef. cbn [into_sblo b_cost] in Ef. rewrite nth_error_map in Ef.
        destruct (nth_error (l_hitting p) k) as [ck|] eqn:Eck; cbn [option_map] in Ef; [|discriminate].
        assert (Eck' : nth k (l_hitting p) 0%Q = ck) by (apply nth_error_nth with (d := 0%Q) in Eck; exact Eck).
        assert (Ef' := f_equal (fun o => match o with Some y => y | None => f end) Ef). cbv beta iota in Ef'. subst f.
        match type of Ha with context [call_mean ?vm ?cf ?t' ?a'] =>
          pose proof (certain_call_mean unit_vmerge (fun _ l0 => Ok (if Qle_bool l0 1
            then mkCost (Fin ck) (MSuccess tt)
            else mkCost (D := dc_failure) Inf (MFailure SLOMaxUtilizationExceeded))) t a' Ht) as HC;
          destruct (call_mean vm cf t' a') as [cc|?|] end; cbn [outcome_rel] in HC; try contradiction.
        destruct HC as [HC _]. unfold rbind in Ha. cbn [obind] in Ha.
        assert (Ea : a = (escale (inject_Z xk) (c_cost cc), Fin 0)) by congruence. subst a.
        unfold obj_total in Hf |- *. cbn [fst snd] in Hf |- *. apply is_fin_eadd in Hf as [Hf _]. rewrite Eck'.
        destruct (Qle_bool (q / inject_Z xk) 1).
        + destruct (c_cost cc) as [qc|]; simpl in HC; [|contradiction]. simpl. rewrite HC. ring.
        + destruct (c_cost cc); simpl in *; contradiction.
      - apply Qltb_false in E1.
        assert (Exk0 : xk = 0). { change 0%Q with (inject_Z 0) in E1. rewrite <- Zle_Qle in E1. lia. }
        clear Exk. subst xk.
        destruct (Qltb 0 q); [discriminate|]. destruct (Qeq_bool q 0); [|discriminate].
        unfold rbind in Ha. cbn [obind] in Ha. assert (Ea : a = (Fin 0, Fin 0)) by congruence. subst a.
        simpl. ring. }
    destruct (sum_first_value (map term (seq 0 n))
      (map (fun k => Fin (nth k (l_hitting p) 0%Q * inject_Z (nth k x 0%Z))%Q) (seq 0 n))) as (o & Ho & Eo).
    { assert (G : forall ks, (forall k, In k ks -> (k < n)%nat) ->
        Forall2 (fun m e => exists o, objective_value m = Some o /\ eeq o e) (map term ks)
          (map (fun k => Fin (nth k (l_hitting p) 0%Q * inject_Z (nth k x 0%Z))%Q) ks)).
      { induction ks as [|k ks IH]; intros Hks; cbn [map]; constructor; [apply HK, Hks; left; reflexivity|].
        apply IH. intros k' Hk'. apply Hks. right. exact Hk'. }
      apply G. intros k Hk. apply in_seq in Hk. lia. }
    rewrite H in Ho. cbn [objective_value] in Ho. assert (o = obj_total c) by congruence. subst o.
    eapply eeq_trans; [exact Eo|]. clear. induction (seq 0 n) as [|k ks IH]; cbn [map esum Qsum]; [reflexivity|].
    rewrite IH. simpl. ring.
  Qed.
End Image.

(** A finite hitting cost of the image is the hitting cost of the SLO instance. *)
Lemma image_finite minimize (p : gslo Z) t x l c :
  1 <= t -> 0 < l_d p -> Z.of_nat (length (l_hitting p)) = l_d p -> Z.of_nat (length x) = l_d p ->
  Forall (fun j => 0 <= j) x -> solver_reports minimize -> access (l_load p) t = Some l ->
  sblo_hit valZ minimize (into_sblo p) t x = Ok c -> is_fin (c_cost c) ->
  exists c', slo_hit valZ p t x = Ok c' /\ eeq (c_cost c) (c_cost c') /\ (inject_Z l <= Qsum (map inject_Z x))%Q.
Proof.
  intros Ht Hd Hhit Hx Hx0 Hsol Hl HC Hfin.
  assert (Hcov : (inject_Z l <= Qsum (map inject_Z x))%Q).
  { pose proof (image_cost_covers minimize p t x l c Ht Hd Hx Hx0 Hsol Hl HC Hfin) as H.
    rewrite Zle_Qle in H. eapply Qle_trans; [exact H|].
    assert (E : (Qsum (map inject_Z x) == inject_Z (BudgetModel.zsum x))%Q).
    { clear. induction x as [|a x IH]; simpl; [reflexivity|]. rewrite IH, inject_Z_plus. reflexivity. }
    rewrite E. apply Qle_refl. }
  rewrite slo_value with (l := l) by assumption.
  replace (Qltb (config_total valZ x) (v_toQ valZ l)) with false.
  2:{ symmetry. apply Qltb_false. exact Hcov. }
  eexists. split; [reflexivity|]. split; [|exact Hcov]. cbn [c_cost].
  unfold sblo_hit, call_certain_within in HC.
  apply obind_inv in HC as (w & Hw & HC). destruct w.
  2:{ injection HC as HC. rewrite <- HC in Hfin. destruct Hfin. }
  unfold apply_loads_over_time in HC.
  rewrite certain_call_certain in HC by exact Ht.
  replace (t - 1 + 1) with t in HC by lia.
  assert (EL : access (map (fun l0 => [v_toQ valZ l0]) (b_load (into_sblo p))) t = Some [inject_Z l]).
  { unfold access in *. cbn [into_sblo b_load]. rewrite map_length. destruct (_ && _); [|discriminate].
    rewrite nth_error_map, Hl. reflexivity. }
  rewrite EL in HC. cbn [from_option obind] in HC. clear EL.
  unfold apply_loads in HC. cbn [length Nat.eqb negb] in HC.
  destruct (_ <? _)%nat in HC; [discriminate|].
  destruct (negb _) in HC; [discriminate|].
  destruct (minimize _ _ _ _) as [[zs val]|] eqn:EM in HC; cbn [from_option obind fst snd] in HC; [|discriminate].
  apply Hsol in EM.
  destruct (sblo_objective valZ (into_sblo p) t x [inject_Z l] (new_fractions zs (Z.to_nat (b_d (into_sblo p))) 1))
    as [[o|f]|?|] eqn:EO; cbn [obind] in EM, HC; try discriminate.
  - assert (val = obj_total o) by congruence. subst val.
    destruct (_ && _) in HC; [|discriminate].
    assert (Ec : c_cost c = obj_total o) by (assert (c = mkCost (obj_total o) (MSuccess (mkDCS (fst o) (snd o) [[zs]]))) by congruence; subst c; reflexivity).
    rewrite Ec in Hfin |- *. unfold new_fractions in EO. cbn [into_sblo b_d] in EO.
    pose proof (image_value p t x (inject_Z l) Ht Hx Hx0 _ _ EO Hfin) as E. rewrite E.
    apply Fin_proper. clear - Hx.
    assert (G : forall ks, (forall k, In k ks -> (k < length x)%nat) ->
      (Qsum (map (fun k => nth k (l_hitting p) 0%Q * inject_Z (nth k x 0%Z))%Q ks)
       == Qsum (map (fun k => nth k (l_hitting p) 0%Q * v_toQ valZ (nth k x l))%Q ks))%Q).
    { induction ks as [|k ks IH]; intros H; cbn [map Qsum]; [reflexivity|].
      rewrite IH by (intros; apply H; right; assumption). cbn [valZ v_toQ].
      rewrite (nth_indep x 0%Z l) by (apply H; left; reflexivity). reflexivity. }
    apply G. intros k Hk. apply in_seq in Hk. lia.
  - assert (Ec : c_cost c = Inf).
    { assert (c = mkCost val (MFailure f)) by congruence. subst c. simpl. unfold obj_total, obj_failure in EM. simpl in EM. congruence. }
    rewrite Ec in Hfin. contradiction.
Qed.
