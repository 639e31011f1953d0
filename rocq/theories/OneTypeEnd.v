(** Solving data centres with servers of one type. *)
From Coq Require Import Lia Lqa Setoid.
From Verif Require Import NumLemmas CostSpec CostProofs ConvertProofs VerifySpec VerifyProofs CapacitySpec CapacityModel CapacityProofs DataCenterParts DataCenterProofs DataCenterInstances
  OfflineSpec OfflineProofs OfflineEnd Offline1DModel Offline1DProofs OneTypeSpec OneTypeConvex OneTypeCosts OneTypeInstances.
From Verif Require Import ProblemModel CostModel.
Local Open Scope Z_scope.

Section Ends.
  Variables (powf : Q -> Q -> Q) (m : data_center) (price : location -> Z -> Q) (power : server_type -> Q -> Q)
    (revenue : job_type -> Q * Q) (l : location) (st : server_type).
  Hypothesis HO : one_type powf m price power revenue l st.
  Variable minimize : (list Q -> outcome ext) -> list (Q * Q) -> list Q -> list (list Q -> outcome Q) -> option (list Q * ext).
  Hypothesis HM : trivial_exact minimize.

  Notation load_cost := (load_cost m price power revenue l st).

  Lemma one_type_cost_proof (T : Type) (v : value T) ofZ loads p t y lambda :
    to_ssco powf m v ofZ minimize loads = Ok p -> Forall (profile m) loads -> (v_toQ v (v_zero v) == 0)%Q ->
    1 <= t -> nth_error loads (Z.to_nat (t - 1)) = Some lambda -> in_box v (g_bounds p) [y] ->
    exists c, gssco_hit v dc_vmerge OutsideDecisionSpace p t [y] = Ok c /\
      (supported m st (v_toQ v y) (counted lambda) ->
         exists q, c_cost c = Fin q /\ (q == active_cost m price power revenue l st t (counted lambda) (v_toQ v y))%Q) /\
      (~ supported m st (v_toQ v y) (counted lambda) -> c_cost c = Inf).
  Proof.
    intros Hgen HL HZ Ht HN Hy. assert (HT : 1 <= t <= g_tend p).
    { rewrite (gen_tend powf m minimize v ofZ loads p Hgen). assert (Z.to_nat (t - 1) < length loads)%nat by (apply nth_error_Some; congruence). lia. }
    destruct (gen_hit powf m price power revenue l st HO minimize HM v ofZ loads p Hgen HL t y HZ HT Hy) as (c & Hc & Ec).
    assert (ES : slot_load loads t = lambda).
    { destruct (slot_profile powf m minimize v ofZ loads p Hgen HL t HT) as [H _]. congruence. }
    rewrite ES in Ec. exists c. split; [exact Hc|]. destruct (load_cost_spec m price power revenue l st lambda t (v_toQ v y)) as [H1 H2].
    split; intros HS.
    - rewrite (H1 HS) in Ec. destruct (c_cost c) as [q|]; [|contradiction]. exists q. split; [reflexivity|exact Ec].
    - rewrite (H2 HS) in Ec. destruct (c_cost c); [contradiction|reflexivity].
  Qed.

  Lemma convex_eeq (u : Q) (f g : Q -> ext) : (forall x, (0 <= x <= u)%Q -> eeq (f x) (g x)) -> convex_onQ u f -> convex_onQ u g.
  Proof.
    intros E H a b c qa qc Ha Hab Hbc Hc Ea Ec.
    pose proof (E a ltac:(lra)) as Fa. pose proof (E b ltac:(lra)) as Fb. pose proof (E c ltac:(lra)) as Fc.
    rewrite Ea in Fa. rewrite Ec in Fc. destruct (f a) as [a'|] eqn:Ea'; [|contradiction]. destruct (f c) as [c'|] eqn:Ec'; [|contradiction].
    destruct (H a b c a' c' Ha Hab Hbc Hc Ea' Ec') as (qb & Eb & HL). rewrite Eb in Fb. destruct (g b) as [qb'|]; [|contradiction].
    exists qb'. split; [reflexivity|]. cbn in Fa, Fb, Fc. rewrite <- Fa, <- Fb, <- Fc. exact HL.
  Qed.

  Lemma convex_integral (u : Z) (f : Q -> ext) (g : Z -> ext) : (forall j, 0 <= j <= u -> eeq (f (inject_Z j)) (g j)) -> convex_onQ (inject_Z u) f -> convex_on u g.
  Proof.
    intros E H a b c qa qc Hab Hbc Ea Ec.
    pose proof (E a ltac:(lia)) as Fa. pose proof (E b ltac:(lia)) as Fb. pose proof (E c ltac:(lia)) as Fc.
    rewrite Ea in Fa. rewrite Ec in Fc. destruct (f (inject_Z a)) as [a'|] eqn:Ea'; [|contradiction]. destruct (f (inject_Z c)) as [c'|] eqn:Ec'; [|contradiction].
    destruct (H (inject_Z a) (inject_Z b) (inject_Z c) a' c') as (qb & Eb & HL); auto.
    { change 0%Q with (inject_Z 0). rewrite <- Zle_Qle. lia. }
    { rewrite <- Zle_Qle. lia. }
    { rewrite <- Zle_Qle. lia. }
    { rewrite <- Zle_Qle. lia. }
    rewrite Eb in Fb. destruct (g b) as [qb'|]; [|contradiction].
    exists qb'. split; [reflexivity|]. cbn in Fa, Fb, Fc. rewrite <- Fa, <- Fb, <- Fc. unfold Zminus. rewrite !inject_Z_plus, !inject_Z_opp. exact HL.
  Qed.

  Lemma one_type_convexQ ofZ loads p cap t : to_ssco powf m valQ ofZ minimize loads = Ok p -> Forall (profile m) loads ->
    g_bounds p = [cap] -> 1 <= t <= g_tend p ->
    let f := fun x => cost_of (gssco_hit valQ dc_vmerge OutsideDecisionSpace p t [x]) in
    convex_onQ cap f /\ (forall x, (0 <= x <= cap)%Q -> ele (Fin 0) (f x)) /\
    (forall x y, (0 <= x)%Q -> (x <= y)%Q -> (y <= cap)%Q -> is_fin (f x) -> is_fin (f y)).
  Proof.
    intros Hgen HL HB HT f.
    assert (E : forall x, (0 <= x <= cap)%Q -> eeq (load_cost (slot_load loads t) t x) (f x)).
    { intros x Hx. destruct (gen_hit powf m price power revenue l st HO minimize HM valQ ofZ loads p Hgen HL t x ltac:(reflexivity) HT) as (c & Hc & Ec).
      - rewrite HB. constructor; [exact Hx|constructor].
      - unfold f. rewrite Hc. symmetry. exact Ec. }
    pose proof (slot_nonneg m loads HL t) as HF. split; [|split].
    - apply (convex_eeq cap (load_cost (slot_load loads t) t) f E). apply (load_cost_convex powf m price power revenue l st HO). exact HF.
    - intros x Hx. rewrite <- E by exact Hx. apply (load_cost_nonneg powf m price power revenue l st HO). exact HF.
    - intros x y Hx Hxy Hy HI. eapply is_fin_eeq; [apply E; lra|]. assert (HI' : is_fin (load_cost (slot_load loads t) t x)) by (eapply is_fin_eeq; [apply eeq_sym, E; lra|exact HI]).
      unfold OneTypeInstances.load_cost in *. destruct (supported_dec m st (counted (slot_load loads t)) x) as [S|S]; [|contradiction].
      destruct (supported_dec m st (counted (slot_load loads t)) y) as [S'|S']; [exact I|].
      apply S'. exact (supported_mono powf m price power revenue l st HO _ x y Hxy S).
  Qed.

  Lemma one_type_convexZ loads p cap t : to_ssco powf m valZ (fun z => z) minimize loads = Ok p -> Forall (profile m) loads ->
    g_bounds p = [cap] -> 1 <= t <= g_tend p ->
    let f := fun j => cost_of (gssco_hit valZ dc_vmerge OutsideDecisionSpace p t [j]) in
    convex_on cap f /\ (forall j, 0 <= j <= cap -> ele (Fin 0) (f j)) /\
    (forall i j, 0 <= i <= j -> j <= cap -> is_fin (f i) -> is_fin (f j)).
  Proof.
    intros Hgen HL HB HT f.
    assert (E : forall j, 0 <= j <= cap -> eeq (load_cost (slot_load loads t) t (inject_Z j)) (f j)).
    { intros x Hx. destruct (gen_hit powf m price power revenue l st HO minimize HM valZ (fun z => z) loads p Hgen HL t x ltac:(reflexivity) HT) as (c & Hc & Ec).
      - rewrite HB. constructor; [|constructor]. cbn. change 0%Q with (inject_Z 0). rewrite <- !Zle_Qle. exact Hx.
      - unfold f. rewrite Hc. symmetry. exact Ec. }
    pose proof (slot_nonneg m loads HL t) as HF. split; [|split].
    - apply (convex_integral cap (load_cost (slot_load loads t) t) f E). apply (load_cost_convex powf m price power revenue l st HO). exact HF.
    - intros x Hx. rewrite <- E by exact Hx. apply (load_cost_nonneg powf m price power revenue l st HO). exact HF.
    - intros x y Hx Hy HI. eapply is_fin_eeq; [apply E; lia|]. assert (HI' : is_fin (load_cost (slot_load loads t) t (inject_Z x))) by (eapply is_fin_eeq; [apply eeq_sym, E; lia|exact HI]).
      unfold OneTypeInstances.load_cost in *. destruct (supported_dec m st (counted (slot_load loads t)) (inject_Z x)) as [S|S]; [|contradiction].
      destruct (supported_dec m st (counted (slot_load loads t)) (inject_Z y)) as [S'|S']; [exact I|].
      apply S'. refine (supported_mono powf m price power revenue l st HO _ (inject_Z x) (inject_Z y) _ S). rewrite <- Zle_Qle. lia.
  Qed.

  (** *** Graph search *)
  Lemma one_type_searched s o loads p cap :
    to_ssco powf m valZ (fun z => z) minimize loads = Ok p -> Forall (profile m) loads ->
    lookup (lo_m l) (st_key st) = Ok cap -> positive_capacities m -> positive_switching m ->
    Forall (fun lambda => supported m st (inject_Z cap) (counted lambda)) loads ->
    (0 <= fo_alpha o)%Q -> fo_l o = None -> fo_inverted o = false ->
    exists xs c,
      offline_solve (ssco_ops valZ dc_hmerge dc_vmerge OutsideDecisionSpace s) (search_1d_ssco dc_vmerge OutsideDecisionSpace o) p = Ok (xs, c) /\
      ssco_objective dc_hmerge dc_vmerge OutsideDecisionSpace s p 1 xs = Ok c /\ is_fin (c_cost c) /\
      cheapest (ssco_objective dc_hmerge dc_vmerge OutsideDecisionSpace s p (fo_alpha o)) (Z.of_nat (length loads)) [cap] xs.
  Proof.
    intros Hgen HL HC HPC HPS Hcap Ha Hl Hi.
    destruct (gen_shape powf m price power revenue l st HO minimize valZ (fun z => z) loads p Hgen ltac:(reflexivity)) as (cap' & sw & C1 & HB & C2 & HS & Hd).
    assert (cap' = cap) by congruence. subst cap'.
    assert (HT : g_tend p = Z.of_nat (length loads)) by exact (gen_tend powf m minimize valZ (fun z => z) loads p Hgen).
    assert (HV : verify_ssco valZ p = Ok tt).
    { destruct (ssco_generated powf m Z valZ (fun z => z) minimize loads p ltac:(reflexivity) Hgen) as (_ & _ & _ & _ & _ & _ & HV & _). apply HV.
      rewrite (ot_location _ _ _ _ _ _ _ HO), (ot_type _ _ _ _ _ _ _ HO). repeat split; auto. discriminate. }
    assert (Hp : 0 < cap) by (eapply HPC; [apply (location_in powf m price power revenue l st HO)|apply (type_in powf m price power revenue l st HO)|exact HC]).
    assert (Hev : evaluable (gssco_hit valZ dc_vmerge OutsideDecisionSpace p) (g_tend p) (g_bounds p)).
    { intros t x Ht Hx. pose proof Hx as Hx'. rewrite HB in Hx'. inversion Hx' as [|? j ? r Hj Hr]; subst. inversion Hr; subst.
      destruct (gen_hit powf m price power revenue l st HO minimize HM valZ (fun z => z) loads p Hgen HL t j ltac:(reflexivity) Ht) as (c & Hc & _); [|exists c; exact Hc].
      apply feasible_box in Hx. exact Hx. }
    rewrite <- HT, <- HB. apply (search_1d_solved dc_hmerge dc_vmerge OutsideDecisionSpace s p cap o HV HB Hev); auto.
    - intros t Ht. rewrite HB. assert (Hx : feasible_config (g_bounds p) [cap]) by (rewrite HB; constructor; [lia|constructor]).
      destruct (gen_hit powf m price power revenue l st HO minimize HM valZ (fun z => z) loads p Hgen HL t cap ltac:(reflexivity) Ht) as (c & Hc & Ec); [apply feasible_box in Hx; exact Hx|].
      exists c. split; [exact Hc|]. eapply is_fin_eeq; [apply eeq_sym; exact Ec|]. cbn [valZ v_toQ].
      destruct (slot_profile powf m minimize valZ (fun z => z) loads p Hgen HL t Ht) as [HN _].
      rewrite Forall_forall in Hcap. rewrite (proj1 (load_cost_spec m price power revenue l st (slot_load loads t) t (inject_Z cap))); [exact I|].
      apply Hcap. eapply nth_error_In. exact HN.
    - intros t Ht. exact (proj1 (one_type_convexZ loads p cap t Hgen HL HB Ht)).
    - intros t j Ht Hj. exact (proj1 (proj2 (one_type_convexZ loads p cap t Hgen HL HB Ht)) j Hj).
  Qed.

  (** *** Backward-recurrent capacity provisioning *)
  Lemma one_type_capacity loads p cap :
    to_ssco powf m valQ inject_Z minimize loads = Ok p -> Forall (profile m) loads ->
    lookup (lo_m l) (st_key st) = Ok cap -> positive_capacities m -> positive_switching m ->
    Forall (fun lambda => supported m st (inject_Z cap) (counted lambda)) loads ->
    exists beta f, verify_ssco valQ p = Ok tt /\ g_tend p = Z.of_nat (length loads) /\ g_bounds p = [inject_Z cap] /\ g_switching p = [beta] /\
      capacity_costsQ (inject_Z cap) f beta /\
      forall t x, 1 <= t <= g_tend p -> (0 <= x <= inject_Z cap)%Q ->
        (exists c, call_mean dc_vmerge (g_cost p) t [x] = Ok c /\ eeq (c_cost c) (f t x)) /\
        (forall rs, call_predictive (g_cost p) t [x] = Ok rs -> length rs = 1%nat).
  Proof.
    intros Hgen HL HC HPC HPS Hcap.
    destruct (gen_shape powf m price power revenue l st HO minimize valQ inject_Z loads p Hgen ltac:(reflexivity)) as (cap' & sw & C1 & HB & C2 & HS & Hd).
    assert (cap' = cap) by congruence. subst cap'.
    assert (HT : g_tend p = Z.of_nat (length loads)) by exact (gen_tend powf m minimize valQ inject_Z loads p Hgen).
    assert (HV : verify_ssco valQ p = Ok tt).
    { destruct (ssco_generated powf m Q valQ inject_Z minimize loads p ltac:(reflexivity) Hgen) as (_ & _ & _ & _ & _ & _ & HV & _). apply HV.
      rewrite (ot_location _ _ _ _ _ _ _ HO), (ot_type _ _ _ _ _ _ _ HO). repeat split; auto. discriminate. }
    assert (Hp : 0 < cap) by (eapply HPC; [apply (location_in powf m price power revenue l st HO)|apply (type_in powf m price power revenue l st HO)|exact HC]).
    assert (HpQ : (0 < inject_Z cap)%Q) by (change 0%Q with (inject_Z 0); rewrite <- Zlt_Qlt; exact Hp).
    assert (Hsw : (0 < switching_cost_of sw)%Q) by (eapply HPS; [apply (type_in powf m price power revenue l st HO)|exact C2]).
    (* outside the range of servers any function will do *)
    set (f := fun t x => if Qle_bool 0 x then load_cost (slot_load loads t) t x else Fin 0).
    assert (Ef : forall t x, (0 <= x)%Q -> f t x = load_cost (slot_load loads t) t x).
    { intros t x Hx. unfold f. apply Qle_bool_iff in Hx. rewrite Hx. reflexivity. }
    exists (switching_cost_of sw), f. split; [exact HV|]. split; [exact HT|]. split; [exact HB|]. split; [exact HS|]. split.
    - constructor.
      + lra.
      + lra.
      + intros t x y E. unfold f. assert (EB : Qle_bool 0 x = Qle_bool 0 y) by (apply eq_true_iff_eq; rewrite !Qle_bool_iff, E; reflexivity). rewrite <- EB.
        destruct (Qle_bool 0 x) eqn:EX; [|reflexivity]. apply Qle_bool_iff in EX.
        apply (load_cost_eq powf m price power revenue l st HO); auto. apply (slot_nonneg m loads HL).
      + intros t _. intros a b c qa qc Ha' Hab Hbc Hc Ea Ec. rewrite Ef in Ea, Ec by lra. rewrite Ef by lra.
        exact (load_cost_convex powf m price power revenue l st HO (slot_load loads t) t (inject_Z cap) (slot_nonneg m loads HL t) a b c qa qc Ha' Hab Hbc Hc Ea Ec).
      + intros t Ht. rewrite Ef by lra. rewrite (proj1 (load_cost_spec m price power revenue l st (slot_load loads t) t (inject_Z cap))); [exact I|].
        unfold slot_load. destruct (nth_in_or_default (Z.to_nat (t - 1)) loads []) as [H|H].
        * rewrite Forall_forall in Hcap. apply Hcap. exact H.
        * rewrite H. left. reflexivity.
      + intros t x _ Hx. rewrite Ef by lra. apply (load_cost_nonneg powf m price power revenue l st HO). apply (slot_nonneg m loads HL).
    - intros t x Ht Hx. rewrite Ef by lra. split.
      + exact (gen_mean powf m price power revenue l st HO minimize HM valQ inject_Z loads p Hgen HL t x Ht ltac:(unfold is_nonnegative; cbn; lra)).
      + intros rs Hrs. destruct (gen_call powf m price power revenue l st HO minimize HM valQ inject_Z loads p Hgen HL t x Ht ltac:(unfold is_nonnegative; cbn; lra)) as (c & Hc & _).
        rewrite Hc in Hrs. injection Hrs as <-. reflexivity.
  Qed.

  Lemma one_type_brcp s sched minimizer o loads p cap :
    to_ssco powf m valQ inject_Z minimize loads = Ok p -> Forall (profile m) loads ->
    lookup (lo_m l) (st_key st) = Ok cap -> positive_capacities m -> positive_switching m ->
    Forall (fun lambda => supported m st (inject_Z cap) (counted lambda)) loads ->
    (0 <= fo_alpha o)%Q -> fo_l o = None -> fo_inverted o = false ->
    (forall inv n, (1 <= n)%nat -> (n <= length loads)%nat ->
       exact_answer minimizer
         (bound_objective dc_vmerge dc_hmerge OutsideDecisionSpace sched (gssco_extend (ssco_reset p 0) 0) (fo_alpha o) inv 0 (Z.of_nat n) 0)
         (repeat (0%Q, inject_Z cap) n)) ->
    exists xs c,
      offline_solve (ssco_ops valQ dc_hmerge dc_vmerge OutsideDecisionSpace s)
        (brcp_ssco dc_vmerge OutsideDecisionSpace dc_hmerge sched minimizer o) p = Ok (xs, c) /\
      objective_1dQ dc_hmerge dc_vmerge OutsideDecisionSpace s p 1 xs = Ok c /\ is_fin (c_cost c) /\
      cheapest_1dQ (objective_1dQ dc_hmerge dc_vmerge OutsideDecisionSpace s p (fo_alpha o)) (Z.of_nat (length loads)) (inject_Z cap) xs.
  Proof.
    intros Hgen HL HC HPC HPS Hcap Ha Hl Hi Hex.
    destruct (one_type_capacity loads p cap Hgen HL HC HPC HPS Hcap) as (beta & f & HV & HT & HB & HS & CQ & Hcosts).
    rewrite <- HT. apply (brcp_solved dc_hmerge dc_vmerge OutsideDecisionSpace s sched minimizer p (inject_Z cap) beta f HV HB HS); auto.
    intros inv n H1 H2. apply Hex; [exact H1|]. rewrite HT in H2. lia.
  Qed.

  (** *** Lazy capacity provisioning *)
  Lemma one_type_lcp cap beta loads : 0 <= cap -> (0 <= beta)%Q -> (forall t, profile m (loads t)) ->
    (forall t, supported m st (inject_Z cap) (counted (loads t))) ->
    let p := load_stream powf m minimize cap beta loads in
    let hit := fun (t : Z) (x : list Z) => c_cost (s_hit p t x) in
    forall (n : nat) ys, feasible_schedule (Z.of_nat n) [cap] ys ->
    exists xs mem, integral_lcp OutsideDecisionSpace p 0 n = Ok (xs, mem) /\
      feasible_schedule (Z.of_nat n) [cap] xs /\
      ele (total_cost hit (switching [beta] false) 1 1 [0] xs)
          (escale 3 (total_cost hit (switching [beta] false) 1 1 [0] ys)).
  Proof.
    intros Hc Hb HL HS p hit. apply (lcp_competitive OutsideDecisionSpace p cap beta); try reflexivity.
    assert (E : forall t j, 0 <= j -> eeq (hit t [j]) (load_cost (loads t) t (inject_Z j))).
    { intros t j Hj. unfold hit. cbn [p load_stream s_hit].
      destruct (hits_load_cost powf m price power revenue l st HO minimize HM valZ t j (loads t) (HL t)) as (c & E1 & E2).
      - unfold is_nonnegative. cbn. change 0%Q with (inject_Z 0). rewrite <- Zle_Qle. exact Hj.
      - rewrite E1. exact E2. }
    constructor; auto.
    - intros t Ht. apply (convex_integral cap (load_cost (loads t) t)).
      + intros j Hj. symmetry. apply E. lia.
      + apply (load_cost_convex powf m price power revenue l st HO). apply HL.
    - intros t Ht. eapply is_fin_eeq; [apply eeq_sym, E; lia|].
      rewrite (proj1 (load_cost_spec m price power revenue l st (loads t) t (inject_Z cap))); [exact I|]. apply HS.
    - intros t j Ht Hj. change (ele (Fin 0) (hit t [j])). rewrite E by lia. apply (load_cost_nonneg powf m price power revenue l st HO). apply HL.
  Qed.
End Ends.
