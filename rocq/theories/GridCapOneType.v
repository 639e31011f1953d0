(** Capacity provisioning with NLopt in data centres with one server type; summary lemmas (C84). *)
From Coq Require Import Lia Lqa Setoid Morphisms.
From Verif Require Import NumLemmas ObjectiveSpec CapacitySpec CapacityWork CapacityModel OptimizeModel OptimizeSpec VerifyModel StreamModel OfflineSpec Offline1DModel
  DataCenterModel DataCenterInstances DataCenterSpec OneTypeSpec OneTypeEnd GridCapModel GridCapSpec GridCapProofs GridCapEnd GridCapRestart.
From Verif Require Import ProblemModel CostModel.
Local Open Scope Z_scope.

Lemma one_type_brcp_grid (powf : Q -> Q -> Q) (m : data_center) price power revenue (l : location) (st : server_type) minimize
    (s sched : split) (nlopt : nl_problem -> outcome nl_result) (o : offline_options) (loads : list (list Q))
    (p : gssco Q dc_success dc_failure) (cap : Z) :
  one_type powf m price power revenue l st -> trivial_exact minimize -> exact_nlopt nlopt ->
  to_ssco powf m valQ inject_Z minimize loads = Ok p -> Forall (profile m) loads ->
  DataCenterModel.lookup (lo_m l) (st_key st) = Ok cap -> positive_capacities m -> positive_switching m ->
  Forall (fun lambda => supported m st (inject_Z cap) (counted lambda)) loads ->
  (0 <= fo_alpha o)%Q -> fo_l o = None -> fo_inverted o = false ->
  exists ys c, let xs := map (fun y => [y]) ys in
    offline_solve (ssco_ops valQ dc_hmerge dc_vmerge OutsideDecisionSpace s)
      (brcp_ssco dc_vmerge OutsideDecisionSpace dc_hmerge sched (point_minimize nlopt) o) p = Ok (xs, c) /\
    objective_1dQ dc_hmerge dc_vmerge OutsideDecisionSpace s p 1 xs = Ok c /\ is_fin (c_cost c) /\
    servers_on hundredths (inject_Z cap) (Z.of_nat (length loads)) ys /\
    forall zs, servers_on hundredths (inject_Z cap) (Z.of_nat (length loads)) zs -> exists a b,
      objective_1dQ dc_hmerge dc_vmerge OutsideDecisionSpace s p (fo_alpha o) xs = Ok a /\
      objective_1dQ dc_hmerge dc_vmerge OutsideDecisionSpace s p (fo_alpha o) (map (fun z => [z]) zs) = Ok b /\ ele (c_cost a) (c_cost b).
Proof.
  intros HO HM Hex Hgen HL HC HPC HPS Hcap Ha Hl Hi.
  destruct (one_type_capacity powf m price power revenue l st HO minimize HM loads p cap Hgen HL HC HPC HPS Hcap) as (beta & f & HV & HT & HB & HS & CQ & Hcosts).
  rewrite <- HT. apply (brcp_grid dc_vmerge dc_hmerge OutsideDecisionSpace s sched nlopt Hex p (inject_Z cap) beta f HV HB HS); auto.
  exists (cap * 100). unfold Qeq. cbn. lia.
Qed.

Section Summary.
  Context {C D : Type}.
  Variable vmerge : C -> C -> outcome C.
  Variable merge : C -> C -> C.
  Variable outside : D.
  Variable sched : split.

  Lemma lcp_grid_goes_on nlopt : exact_nlopt nlopt ->
    forall (p : gssco Q C D) (m beta : Q) (f : Z -> Q -> ext),
    verify_ssco valQ p = Ok tt -> g_bounds p = [m] -> g_switching p = [beta] -> hundredths m ->
    capacity_costsQ m f beta -> certain_costs vmerge p m f ->
    (1 <= g_tend p -> exists xs bs, fractional_lcp vmerge merge outside sched (point_minimize nlopt) p 0 1 = Ok (xs, Some bs)) /\
    (forall n xs bs, Z.of_nat n + 1 <= g_tend p ->
       fractional_lcp vmerge merge outside sched (point_minimize nlopt) p 0 n = Ok (xs, Some bs) -> ~ suspected bs ->
       exists x b, fractional_lcp vmerge merge outside sched (point_minimize nlopt) p 0 (S n) = Ok (xs ++ [x], Some (bs ++ [b]))).
  Proof.
    intros Hex p m beta f HV HB HS Hm CQ Hc. split.
    - exact (lcp_grid_first vmerge merge outside sched nlopt Hex p m beta f HV HB HS Hm CQ Hc).
    - intros n xs bs. exact (lcp_grid_more vmerge merge outside sched nlopt Hex p m beta f HV HB HS Hm CQ Hc n xs bs).
  Qed.

  Lemma restart_charges (p : gssco Q C D) (m beta : Q) (f : Z -> Q -> ext) :
    g_bounds p = [m] -> g_switching p = [beta] -> certain_costs vmerge p m f ->
    forall alpha inverted s c xs, 1 <= s -> Z.of_nat (length xs) = g_tend p - s -> (0 <= c <= m)%Q ->
    Forall (fun x => (0 <= x <= m)%Q) xs ->
    let sw := fun prev x : Q => let d := (if inverted : bool then prev - x else x - prev)%Q in (beta * (if Qle_bool d 0 then 0 else d))%Q in
    exists v, bound_objective vmerge merge outside sched (gssco_extend (ssco_reset p s) 0) alpha inverted 0 (g_tend p) c xs = Ok v /\
      eeq v (eadd (total_cost (fun t => f (s + t)) sw alpha 1 c xs) (Fin (alpha * sw (last xs c) c))).
  Proof.
    intros HB HS Hc alpha inv s c xs H1 HL Hcm Hx sw.
    destruct (restart_objective vmerge merge outside sched p m beta f HB HS Hc alpha inv s c xs H1 HL Hcm Hx) as (v & E & Ev).
    exists v. split; [exact E|]. rewrite Ev.
    assert (HW : forall a b, (sw1 beta inv a b == sw a b)%Q).
    { intros a b. unfold sw1, sw. destruct inv; match goal with |- context [Qle_bool ?e 0] =>
        destruct (Qle_bool e 0) eqn:E1; [apply Qle_bool_iff in E1|apply Qle_bool_false in E1];
        let E2 := fresh in destruct (qpos_cases e) as [[? E2]|[? E2]]; rewrite E2; apply Qmult_comp; try reflexivity; lra end. }
    apply eadd_proper.
    - assert (HG : forall xs t a, eeq (total_cost (fun t => f (s + t)) (sw1 beta inv) alpha t a xs) (total_cost (fun t => f (s + t)) sw alpha t a xs)).
      { clear xs HL Hx E Ev. induction xs as [|x xs IH]; intros t a; cbn [total_cost]; [reflexivity|].
        apply eadd_proper; [|apply IH]. apply eadd_proper; [reflexivity|]. cbn [eeq]. rewrite HW. reflexivity. }
      apply HG.
    - cbn [eeq]. rewrite HW. reflexivity.
  Qed.
End Summary.
