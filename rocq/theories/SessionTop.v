(** Lazy capacity provisioning for the loads of a day that arrive one after the other. *)
From Coq Require Import Lia Lqa.
From Verif Require Import NumLemmas CostSpec CostProofs VerifySpec VerifyProofs DataCenterParts DataCenterProofs DataCenterInstances OfflineSpec OfflineProofs OfflineEnd
  OneTypeSpec OneTypeConvex OneTypeCosts OneTypeInstances OneTypeEnd StreamSpec StreamProofs
  SessionModel SessionSpec SessionStream SessionLcp SessionDay SessionEnd SessionCompete.
From Verif Require Import ProblemModel CostModel.
Local Open Scope Z_scope.

Lemma chooses_same {P X C D M} (ops : problem_ops P X C D) alg (default : online P -> M) o : forall ys xs m zs m1 m2,
  length ys = length zs -> chooses ops alg default o xs m ys m1 -> chooses ops alg default o xs m zs m2 -> ys = zs.
Proof.
  induction ys as [|y ys IH]; intros xs m zs m1 m2 HL H1 H2; destruct zs as [|z zs]; try discriminate HL; [reflexivity|].
  inversion H1; subst. inversion H2; subst.
  match goal with A : alg _ _ _ _ = Ok (y, _), B : alg _ _ _ _ = Ok (z, _) |- _ => unfold t, t0 in *; rewrite A in B; injection B as <- <- end.
  f_equal. eapply IH; [cbn [length] in HL; lia|eassumption|eassumption].
Qed.

Lemma answered_all {X C D M Y} (l : list (@online_response X C D M Y)) : answered (map Answered l) = l.
Proof. induction l as [|r l IH]; cbn [map answered]; [reflexivity|]. rewrite IH. reflexivity. Qed.

Section Top.
  Variables (powf : Q -> Q -> Q) (m : data_center) (price : location -> Z -> Q) (power : server_type -> Q -> Q)
    (revenue : job_type -> Q * Q) (l : location) (st : server_type).
  Hypothesis HO : one_type powf m price power revenue l st.
  Variable minimize : (list Q -> outcome ext) -> list (Q * Q) -> list Q -> list (list Q -> outcome Q) -> option (list Q * ext).
  Hypothesis HM : trivial_exact minimize.
  Variable choose : nat -> list Q -> nat -> list Q.
  Hypothesis Hchoose : selects choose.
  Variable sched : split.
  Notation gen := (to_ssco powf m valZ (fun z => z) minimize).
  Notation ops := (ssco_ops valZ dc_hmerge dc_vmerge OutsideDecisionSpace sched).

  Lemma lcp_day loads more p cap : gen loads = Ok p ->
    dc_e m = 1%nat -> Forall (profile m) (loads ++ more) ->
    DataCenterModel.lookup (lo_m l) (st_key st) = Ok cap -> positive_capacities m -> positive_switching m ->
    Forall (fun lambda => supported m st (inject_Z cap) lambda) (loads ++ more) ->
    exists off answers st,
      lcp_session powf m minimize choose sched 0 loads (map Input (into_online more)) = Ok (off, (map Answered answers, Some st)) /\
      length answers = length more /\
      forall k today c, (k <= length more)%nat -> gen (loads ++ firstn k more) = Ok today -> reported off answers k c ->
        let xs := of_xs off ++ map r_x (firstn k answers) in
        let objective := ssco_objective dc_hmerge dc_vmerge OutsideDecisionSpace sched today 1 in
        feasible_schedule (Z.of_nat (length loads + k)) [cap] xs /\ objective xs = Ok c /\ is_fin (c_cost c) /\
        forall ys, feasible_schedule (Z.of_nat (length loads + k)) [cap] ys ->
          exists c', objective ys = Ok c' /\ ele (c_cost c) (escale 3 (c_cost c')).
  Proof.
    intros Hp He HL HC HPC HPS Hsup.
    destruct (gen_other powf m valZ (fun z => z) minimize loads (loads ++ more) p Hp) as (q & Hq & _).
    assert (Hone1 : Forall (fun lambda => length lambda = 1%nat) more).
    { apply Forall_app in HL as [_ HL]. eapply Forall_impl; [|exact HL]. intros a [Ha _]. congruence. }
    destruct (gen_shape powf m price power revenue l st HO minimize valZ (fun z => z) (loads ++ more) q Hq ltac:(reflexivity)) as (cap' & sw & C1 & HB & C2 & HS & Hd).
    assert (cap' = cap) by congruence. subst cap'.
    assert (HT : g_tend q = Z.of_nat (length (loads ++ more))) by exact (gen_tend powf m minimize valZ (fun z => z) (loads ++ more) q Hq).
    assert (HVV : forall ls r, gen ls = Ok r -> verify_ssco valZ r = Ok tt).
    { intros ls r Hr. destruct (ssco_generated powf m Z valZ (fun z => z) minimize ls r ltac:(reflexivity) Hr) as (_ & _ & _ & _ & _ & _ & HV & _). apply HV.
      rewrite (ot_location _ _ _ _ _ _ _ HO), (ot_type _ _ _ _ _ _ _ HO). repeat split; auto. discriminate. }
    pose proof (HVV _ _ Hq) as HV.
    assert (Hcp : 0 < cap) by (eapply HPC; [apply (location_in powf m price power revenue l st HO)|apply (type_in powf m price power revenue l st HO)|exact HC]).
    assert (Hev : evaluable (gssco_hit valZ dc_vmerge OutsideDecisionSpace q) (g_tend q) (g_bounds q)).
    { intros t x Ht Hx. pose proof Hx as Hx'. rewrite HB in Hx'. inversion Hx' as [|? j ? r Hj Hr]; subst. inversion Hr; subst.
      destruct (gen_hit powf m price power revenue l st HO minimize HM valZ (fun z => z) (loads ++ more) q Hq HL t j ltac:(reflexivity) Ht) as (c & Hc & _); [|exists c; exact Hc].
      apply feasible_box in Hx. exact Hx. }
    assert (Hcs : capacity_suffices (gssco_hit valZ dc_vmerge OutsideDecisionSpace q) (g_tend q) (g_bounds q)).
    { intros t Ht. rewrite HB. assert (Hx : feasible_config (g_bounds q) [cap]) by (rewrite HB; constructor; [lia|constructor]).
      destruct (gen_hit powf m price power revenue l st HO minimize HM valZ (fun z => z) (loads ++ more) q Hq HL t cap ltac:(reflexivity) Ht) as (c & Hc & Ec); [apply feasible_box in Hx; exact Hx|].
      exists c. split; [exact Hc|]. eapply is_fin_eeq; [apply eeq_sym; exact Ec|]. cbn [valZ v_toQ].
      destruct (slot_profile powf m minimize valZ (fun z => z) (loads ++ more) q Hq HL t Ht) as [HN [HN1 _]]. rewrite He in HN1.
      rewrite Forall_forall in Hsup. rewrite (proj1 (load_cost_spec m price power revenue l st (slot_load (loads ++ more) t) t (inject_Z cap))); [exact I|].
      apply nth_error_In in HN. apply Hsup in HN. destruct (slot_load (loads ++ more) t) as [|z [|? ?]]; try discriminate HN1. apply single_supported. exact HN. }
    assert (Hpred : forall t x rs, 1 <= t <= g_tend q -> call_predictive (g_cost q) t x = Ok rs -> length rs = 1%nat).
    { intros t x rs Ht Hr. destruct (slot_profile powf m minimize valZ (fun z => z) (loads ++ more) q Hq HL t Ht) as [HN _].
      rewrite (gen_predictive powf m valZ (fun z => z) minimize (loads ++ more) q t x _ Hq ltac:(lia) HN) in Hr. apply obind_Ok in Hr as (c & _ & Hr). injection Hr as <-. reflexivity. }
    destruct (lcp_session_competitive dc_hmerge dc_vmerge OutsideDecisionSpace sched q cap (switching_cost_of sw) HV HB HS Hev Hcs) as (zs & mem & HLz & HCh & HP).
    { intros t Ht. exact (proj1 (one_type_convexZ powf m price power revenue l st HO minimize HM (loads ++ more) q cap t Hq HL HB Ht)). }
    { intros t j Ht Hj. exact (proj1 (proj2 (one_type_convexZ powf m price power revenue l st HO minimize HM (loads ++ more) q cap t Hq HL HB Ht)) j Hj). }
    { exact Hpred. }
    rewrite HT, app_length, Nat2Z.id in HLz.
    destruct (session_exists powf m valZ (fun z => z) minimize choose Hchoose sched (lcp_ssco dc_vmerge OutsideDecisionSpace) lcp_memory (fun x : list Z => x) (fun x => x)
      (lcp_causal dc_vmerge OutsideDecisionSpace) lcp_memory_causal loads more p q Hp Hq Hone1 zs mem (HVV _ _ Hp) HLz HCh) as (off & answers & stt & HR).
    { intros k Hk. destruct (HP k Hk) as (_ & c & Hc & _). exists c. exact Hc. }
    { intros k Hk. destruct (HP k Hk) as (_ & c & Hc & _). exists c. rewrite !map_id. exact Hc. }
    exists off, answers, stt. split; [unfold lcp_session; rewrite Hp; exact HR|].
    destruct stt as [[o xs] mem'].
    destruct (session_follows powf m valZ (fun z => z) minimize choose Hchoose sched (lcp_ssco dc_vmerge OutsideDecisionSpace) lcp_memory (fun x : list Z => x) (fun x => x)
      (lcp_causal dc_vmerge OutsideDecisionSpace) lcp_memory_causal loads more p q Hp Hq Hone1 off (map Answered answers) o xs mem' HR) as (F1 & _ & F3 & F4 & _ & F6 & F7 & F8).
    rewrite answered_all in *. rewrite map_length in F3. split; [exact F3|].
    assert (E : xs = zs).
    { apply (chooses_same ops (lcp_ssco dc_vmerge OutsideDecisionSpace) lcp_memory (mkOnline q 0) xs [] None zs mem' mem); auto. rewrite F4, app_length, map_length. lia. }
    subst zs. intros k today c Hk Hg Hrep. cbv zeta.
    assert (EX : of_xs off ++ map r_x (firstn k answers) = firstn (length loads + k) xs).
    { rewrite F4, firstn_app, F1, (firstn_all2 (of_xs off)) by lia. replace (length loads + k - length loads)%nat with k by lia. rewrite firstn_map. reflexivity. }
    rewrite EX. destruct (HP (length loads + k)%nat ltac:(lia)) as (HF & c0 & Hc0 & Hfin & HCC).
    assert (Ec : c = c0).
    { destruct k as [|k]; cbn [reported] in Hrep.
      - subst c. cbn [firstn map] in EX. rewrite app_nil_r in EX. rewrite <- EX, Nat.add_0_r in Hc0. congruence.
      - destruct Hrep as (r & Hr & ->). specialize (F7 k r Hr). replace (Z.of_nat (length loads) + Z.of_nat k + 1) with (Z.of_nat (length loads + S k)) in F7 by lia.
        replace (length loads + k + 1)%nat with (length loads + S k)%nat in F7 by lia. congruence. }
    subst c0.
    assert (EO : forall ys, ssco_objective dc_hmerge dc_vmerge OutsideDecisionSpace sched today 1 ys = po_objective ops (until q (Z.of_nat (length loads + k))) ys).
    { intros ys. change (ssco_objective dc_hmerge dc_vmerge OutsideDecisionSpace sched today 1 ys) with (po_objective ops today ys).
      assert (Hq' : gen ((loads ++ firstn k more) ++ skipn k more) = Ok q) by (rewrite <- app_assoc, firstn_skipn; exact Hq).
      assert (ET : Z.of_nat (length (loads ++ firstn k more)) = Z.of_nat (length loads + k)) by (rewrite app_length, firstn_length; lia).
      apply (agree_objective valZ dc_hmerge dc_vmerge OutsideDecisionSpace sched (Z.of_nat (length loads + k))).
      - rewrite <- ET. destruct (prefix_agree powf m valZ (fun z => z) minimize (loads ++ firstn k more) _ (skipn k more) today q Hg Hq' eq_refl) as (A1 & A2 & A3 & A4). repeat split; auto.
      - rewrite (gen_tend powf m minimize valZ (fun z => z) (loads ++ firstn k more) today Hg). exact ET.
      - reflexivity. }
    split; [exact HF|]. split; [rewrite EO; exact Hc0|]. split.
    - exact Hfin.
    - intros ys Hys. destruct (HCC ys Hys) as (c' & Hc' & Hle). exists c'. split; [rewrite EO; exact Hc'|exact Hle].
  Qed.
End Top.
