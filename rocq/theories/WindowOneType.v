(** Proofs: the offline optima of a data centre with servers of one type are ordered. *)
From Coq Require Import Lia Lqa.
From Verif Require Import NumLemmas CostSpec CostProofs VerifySpec VerifyProofs DataCenterParts DataCenterProofs DataCenterInstances
  OfflineSpec OfflineProofs OfflineStatic OneTypeSpec OneTypeConvex OneTypeCosts OneTypeInstances OptimizeModel OptimizeSpec HorizonSpec GraphSearchSpec StaticModel GraphSearchModel
  WindowModel WindowSpec WindowOrder.
From Verif Require Import OneTypeInstances ProblemModel CostModel.
Local Open Scope Z_scope.

Section OneType.
  Variables (powf : Q -> Q -> Q) (m : data_center) (price : location -> Z -> Q) (power : server_type -> Q -> Q)
    (revenue : job_type -> Q * Q) (l : location) (st : server_type).
  Hypothesis HO : one_type powf m price power revenue l st.
  Variable minimize : (list Q -> outcome ext) -> list (Q * Q) -> list Q -> list (list Q -> outcome Q) -> option (list Q * ext).
  Hypothesis HM : trivial_exact minimize.
  Variable loads : list (list Q).
  Variable p : gssco Z dc_success dc_failure.
  Variable q : gssco Q dc_success dc_failure.
  Variable cap : Z.
  Hypothesis Hp : to_ssco powf m valZ (fun z => z) minimize loads = Ok p.
  Hypothesis Hq : to_ssco powf m valQ inject_Z minimize loads = Ok q.
  Hypothesis HL : Forall (profile m) loads.
  Hypothesis HC : lookup (lo_m l) (st_key st) = Ok cap.

  Lemma shape_p : exists sw, g_bounds p = [cap] /\ g_switching p = [sw] /\ g_d p = 1 /\ g_bounds q = [inject_Z cap] /\ g_switching q = [sw] /\ g_d q = 1.
  Proof.
    destruct (gen_shape powf m price power revenue l st HO minimize valZ (fun z => z) loads p Hp ltac:(reflexivity)) as (c1 & s1 & A1 & A2 & A3 & A4 & A5).
    destruct (gen_shape powf m price power revenue l st HO minimize valQ inject_Z loads q Hq ltac:(reflexivity)) as (c2 & s2 & B1 & B2 & B3 & B4 & B5).
    assert (c1 = cap) by congruence. assert (c2 = cap) by congruence. assert (s2 = s1) by congruence. subst.
    exists (switching_cost_of s1). repeat split; assumption.
  Qed.

  Lemma hitZ t j : 1 <= t <= g_tend p -> 0 <= j <= cap ->
    exists c, gssco_hit valZ dc_vmerge OutsideDecisionSpace p t [j] = Ok c /\
      eeq (c_cost c) (load_cost m price power revenue l st (slot_load loads t) t (inject_Z j)).
  Proof.
    intros Ht Hj. apply (gen_hit powf m price power revenue l st HO minimize HM valZ (fun z => z) loads p Hp HL t j ltac:(reflexivity) Ht).
    apply feasible_box. destruct shape_p as (sw & -> & _). constructor; [exact Hj|constructor].
  Qed.

  Lemma hitQ t y : 1 <= t <= g_tend q -> (0 <= y <= inject_Z cap)%Q ->
    exists c, gssco_hit valQ dc_vmerge OutsideDecisionSpace q t [y] = Ok c /\
      eeq (c_cost c) (load_cost m price power revenue l st (slot_load loads t) t y).
  Proof.
    intros Ht Hy. apply (gen_hit powf m price power revenue l st HO minimize HM valQ inject_Z loads q Hq HL t y ltac:(reflexivity) Ht).
    destruct shape_p as (sw & _ & _ & _ & -> & _). constructor; [exact Hy|constructor].
  Qed.

  Lemma tends : g_tend p = Z.of_nat (length loads) /\ g_tend q = Z.of_nat (length loads).
  Proof. split; [exact (gen_tend powf m minimize valZ (fun z => z) loads p Hp)|exact (gen_tend powf m minimize valQ inject_Z loads q Hq)]. Qed.

  Lemma one_type_same : same_problem dc_vmerge OutsideDecisionSpace p q.
  Proof.
    destruct shape_p as (sw & P1 & P2 & P3 & Q1 & Q2 & Q3). destruct tends as [T1 T2]. constructor; try congruence.
    - rewrite P1, Q1. reflexivity.
    - intros t x Ht Hx. rewrite P1 in Hx. inversion Hx as [|? j ? r Hj Hr]; subst. inversion Hr; subst.
      destruct (hitZ t j Ht Hj) as (c1 & E1 & H1).
      destruct (hitQ t (inject_Z j)) as (c2 & E2 & H2); [lia| |].
      { change 0%Q with (inject_Z 0). rewrite <- !Zle_Qle. exact Hj. }
      change (map inject_Z [j]) with [inject_Z j]. rewrite E1, E2. cbn [cost_of]. rewrite H1. exact H2.
  Qed.

  Lemma one_type_fractional : fractional_costs dc_vmerge OutsideDecisionSpace q.
  Proof.
    destruct shape_p as (sw & _ & _ & _ & Q1 & _). constructor; intros t x.
    - intros Ht Hx. rewrite Q1 in Hx. inversion Hx as [|? j ? r Hj Hr]; subst. inversion Hr; subst.
      destruct (hitQ t j Ht Hj) as (c & E & _). exists c. exact E.
    - intros y Ht Hx Hxy. rewrite Q1 in Hx. inversion Hx as [|? j ? r Hj Hr]; subst. inversion Hr; subst.
      inversion Hxy as [|? k ? r2 Hk Hr2]; subst. inversion Hr2; subst.
      destruct (hitQ t j Ht Hj) as (c1 & E1 & H1). destruct (hitQ t k Ht) as (c2 & E2 & H2); [lra|].
      rewrite E1, E2. cbn [cost_of]. rewrite H1, H2.
      apply (load_cost_eq powf m price power revenue l st HO); [apply (slot_nonneg m loads HL)|apply Hj|exact Hk].
  Qed.

  Lemma one_type_evaluable : evaluable (gssco_hit valZ dc_vmerge OutsideDecisionSpace p) (g_tend p) (g_bounds p).
  Proof.
    destruct shape_p as (sw & P1 & _). intros t x Ht Hx. rewrite P1 in Hx. inversion Hx as [|? j ? r Hj Hr]; subst. inversion Hr; subst.
    destruct (hitZ t j Ht Hj) as (c & E & _). exists c. exact E.
  Qed.

  Lemma one_type_capacity : 0 <= cap -> Forall (fun lambda => supported m st (inject_Z cap) (counted lambda)) loads ->
    capacity_suffices (gssco_hit valZ dc_vmerge OutsideDecisionSpace p) (g_tend p) (g_bounds p).
  Proof.
    intros H0 Hcap t Ht. destruct shape_p as (sw & P1 & _). rewrite P1. destruct (hitZ t cap Ht ltac:(lia)) as (c & E & H). exists c. split; [exact E|].
    eapply is_fin_eeq; [apply eeq_sym; exact H|].
    destruct (slot_profile powf m minimize valZ (fun z => z) loads p Hp HL t Ht) as [HN _].
    rewrite (proj1 (load_cost_spec m price power revenue l st (slot_load loads t) t (inject_Z cap))); [exact I|].
    rewrite Forall_forall in Hcap. apply Hcap. eapply nth_error_In. exact HN.
  Qed.

  Lemma one_type_verified : loads <> [] -> positive_capacities m -> positive_switching m -> verify_ssco valZ p = Ok tt.
  Proof.
    intros HN HPC HPS. destruct (ssco_generated powf m Z valZ (fun z => z) minimize loads p ltac:(reflexivity) Hp) as (_ & _ & _ & _ & _ & _ & HV & _). apply HV.
    rewrite (ot_location _ _ _ _ _ _ _ HO), (ot_type _ _ _ _ _ _ _ HO). repeat split; auto. discriminate.
  Qed.
End OneType.

Theorem one_type_ordered powf m price power revenue l st minimize nlopt sched search splits s loads cap
    (p : gssco Z dc_success dc_failure) (fractional : gsco Q dc_success dc_failure) (integral : gsco Z dc_success dc_failure) :
  one_type powf m price power revenue l st -> trivial_exact minimize -> exact_nlopt nlopt ->
  to_ssco powf m valZ (fun z => z) minimize loads = Ok p ->
  to_sco powf m valQ inject_Z minimize loads = Ok fractional ->
  to_sco powf m valZ (fun z => z) minimize loads = Ok integral ->
  loads <> [] -> Forall (profile m) loads -> lookup (lo_m l) (st_key st) = Ok cap ->
  positive_capacities m -> positive_switching m ->
  Forall (fun lambda => supported m st (inject_Z cap) (counted lambda)) loads ->
  exists xs a ys b zs c,
    offline_solve (sco_ops valQ dc_hmerge dc_vmerge OutsideDecisionSpace s)
      (co_solver dc_vmerge dc_hmerge OutsideDecisionSpace nlopt sched default_options) fractional = Ok (xs, a) /\
    offline_solve (ssco_ops valZ dc_hmerge dc_vmerge OutsideDecisionSpace s)
      (optimal_search_ssco dc_vmerge OutsideDecisionSpace search default_options) p = Ok (ys, b) /\
    offline_solve (sco_ops valQ dc_hmerge dc_vmerge OutsideDecisionSpace s)
      (static_fractional_solver dc_vmerge dc_hmerge OutsideDecisionSpace nlopt sched default_options) fractional = Ok (zs, c) /\
    is_fin (c_cost b) /\ ele (c_cost a) (c_cost b) /\ ele (c_cost a) (c_cost c) /\
    forall ws d, offline_solve (sco_ops valZ dc_hmerge dc_vmerge OutsideDecisionSpace s)
        (fun r => static_integral dc_vmerge dc_hmerge OutsideDecisionSpace splits r false 1 None) integral = Ok (ws, d) ->
      ele (c_cost b) (c_cost d) /\ ele (c_cost c) (c_cost d).
Proof.
  intros HO HM Hex Hp Hf Hi HN HL HC HPC HPS Hcap.
  unfold to_sco in Hf, Hi. rewrite Hp in Hi. cbn [obind] in Hi. injection Hi as <-.
  apply obind_Ok in Hf as (q & Hq & Hf). injection Hf as <-.
  assert (H0 : 0 < cap) by (eapply HPC; [rewrite (ot_location _ _ _ _ _ _ _ HO)|rewrite (ot_type _ _ _ _ _ _ _ HO)|exact HC]; left; reflexivity).
  assert (HT : 1 <= g_tend p) by (rewrite (gen_tend powf m minimize valZ (fun z => z) loads p Hp); destruct loads; [congruence|cbn [length]; lia]).
  pose proof (one_type_verified powf m price power revenue l st HO minimize loads p Hp HN HPC HPS) as HV.
  pose proof (one_type_evaluable powf m price power revenue l st HO minimize HM loads p q cap Hp Hq HL HC) as Hev.
  pose proof (one_type_capacity powf m price power revenue l st HO minimize HM loads p q cap Hp Hq HL HC ltac:(lia) Hcap) as Hc.
  destruct (ordered_optima dc_vmerge dc_hmerge OutsideDecisionSpace nlopt Hex sched search splits s p q HV HT Hev Hc
    (one_type_same powf m price power revenue l st HO minimize HM loads p q cap Hp Hq HL HC)
    (one_type_fractional powf m price power revenue l st HO minimize HM loads p q cap Hp Hq HL HC)) as (xs & a & ys & b & zs & c & E1 & E2 & E3 & L1 & L2 & L3).
  exists xs, a, ys, b, zs, c. repeat (split; [assumption|]). split; [|repeat (split; [assumption|]); exact L3].
  destruct (OfflineEnd.ssco_solved dc_hmerge dc_vmerge OutsideDecisionSpace s search default_options p HV HT Hev Hc ltac:(cbn; lra) eq_refl) as (ys' & b' & E2' & _ & F & _).
  assert (b' = b) by congruence. subst b'. exact F.
Qed.
