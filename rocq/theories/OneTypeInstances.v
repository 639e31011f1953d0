(** Instances generated for data centres with servers of one type. *)
From Coq Require Import Lia Lqa Setoid.
From Verif Require Import NumLemmas CostSpec CostProofs ConvertProofs VerifySpec VerifyProofs CapacitySpec DataCenterParts DataCenterProofs DataCenterInstances
  OfflineSpec OfflineProofs Offline1DModel Offline1DProofs OneTypeSpec OneTypeConvex OneTypeCosts.
From Verif Require Import ProblemModel CostModel.
Local Open Scope Z_scope.

Section Instance.
  Variables (powf : Q -> Q -> Q) (m : data_center) (price : location -> Z -> Q) (power : server_type -> Q -> Q)
    (revenue : job_type -> Q * Q) (l : location) (st : server_type).
  Hypothesis HO : one_type powf m price power revenue l st.
  Variable minimize : (list Q -> outcome ext) -> list (Q * Q) -> list Q -> list (list Q -> outcome Q) -> option (list Q * ext).
  Hypothesis HM : trivial_exact minimize.

  Notation worth := (active_cost m price power revenue l st).

  (** The hitting cost as a function on the rationals. *)
  Definition load_cost (lambda : list Q) (t : Z) (x : Q) : ext :=
    if supported_dec m st (counted lambda) x then Fin (worth t (counted lambda) x) else Inf.

  Lemma load_cost_spec lambda t x : 
    (supported m st x (counted lambda) -> load_cost lambda t x = Fin (worth t (counted lambda) x)) /\
    (~ supported m st x (counted lambda) -> load_cost lambda t x = Inf).
  Proof. unfold load_cost. destruct (supported_dec m st (counted lambda) x); split; intros; tauto. Qed.

  Lemma hits_load_cost {T} (v : value T) t y lambda : profile m lambda -> is_nonnegative v y ->
    exists c, apply_loads v minimize (dc_d m) (dc_e m) (dc_objective_of powf m v) lambda t [y] = Ok c /\
      eeq (c_cost c) (load_cost lambda t (v_toQ v y)).
  Proof.
    intros HP Hy. destruct (hits_value powf m price power revenue l st HO v minimize t y lambda HM HP Hy) as (c & Hc & HS & HN).
    exists c. split; [exact Hc|]. unfold load_cost. destruct (supported_dec m st (counted lambda) (v_toQ v y)) as [S|S].
    - destruct (HS S) as (q & E & EQ). rewrite E. exact EQ.
    - rewrite (HN S). exact I.
  Qed.

  Lemma load_cost_convex lambda t u : Forall (fun q => 0 <= q)%Q lambda -> convex_onQ u (load_cost lambda t).
  Proof.
    intros HF a b c qa qc Ha Hab Hbc _ Ea Ec. unfold load_cost in *.
    destruct (supported_dec m st (counted lambda) a) as [Sa|]; [|discriminate].
    pose proof (supported_mono powf m price power revenue l st HO (counted lambda) a b Hab Sa) as Sb.
    destruct (supported_dec m st (counted lambda) c) as [Sc|]; [|discriminate].
    destruct (supported_dec m st (counted lambda) b) as [Sb'|Sb']; [|contradiction].
    injection Ea as <-. injection Ec as <-. eexists. split; [reflexivity|].
    exact (cost_convex powf m price power revenue l st HO t (counted lambda) a b c (counted_nonneg lambda HF) Ha Hab Hbc Sa).
  Qed.

  Lemma load_cost_nonneg lambda t x : Forall (fun q => 0 <= q)%Q lambda -> ele (Fin 0) (load_cost lambda t x).
  Proof.
    intros HF. unfold load_cost. destruct (supported_dec m st (counted lambda) x); [|exact I].
    exact (cost_nonneg powf m price power revenue l st HO t (counted lambda) x (counted_nonneg lambda HF)).
  Qed.

  Lemma load_cost_eq lambda t x y : Forall (fun q => 0 <= q)%Q lambda -> (0 <= x)%Q -> (x == y)%Q -> eeq (load_cost lambda t x) (load_cost lambda t y).
  Proof.
    intros HF Hx E. unfold load_cost.
    assert (R : same_loads (counted lambda) (counted lambda)) by (induction (counted lambda); constructor; [reflexivity|assumption]).
    destruct (supported_dec m st (counted lambda) x) as [Sx|Sx], (supported_dec m st (counted lambda) y) as [Sy|Sy].
    - exact (same_cost powf m price power revenue l st HO t x y _ _ Hx E (counted_nonneg lambda HF) R).
    - destruct Sy. exact (same_supported m st x y _ _ E R Sx).
    - destruct Sx. apply (same_supported m st y x _ _ (Qeq_sym _ _ E) R Sy).
    - exact I.
  Qed.

  (** *** Generated instances *)
  Section Generated.
    Context {T : Type}.
    Variable v : value T.
    Variable ofZ : Z -> T.
    Variable loads : list (list Q).
    Variable p : gssco T dc_success dc_failure.
    Hypothesis Hgen : to_ssco powf m v ofZ minimize loads = Ok p.
    Hypothesis Hloads : Forall (profile m) loads.

    Definition slot_load (t : Z) : list Q := nth (Z.to_nat (t - 1)) loads [].
    Lemma slot_nonneg t : Forall (fun q => 0 <= q)%Q (slot_load t).
    Proof.
      unfold slot_load. destruct (nth_in_or_default (Z.to_nat (t - 1)) loads []) as [H|H].
      - rewrite Forall_forall in Hloads. apply Hloads. exact H.
      - rewrite H. constructor.
    Qed.

    Lemma gen_tend : g_tend p = Z.of_nat (length loads).
    Proof. unfold to_ssco in Hgen. apply obind_Ok in Hgen as (b & _ & H). apply obind_Ok in H as (s & _ & H). injection H as <-. reflexivity. Qed.

    Lemma slot_profile t : 1 <= t <= g_tend p -> nth_error loads (Z.to_nat (t - 1)) = Some (slot_load t) /\ profile m (slot_load t).
    Proof.
      intros Ht. rewrite gen_tend in Ht. assert (HN : nth_error loads (Z.to_nat (t - 1)) = Some (slot_load t)) by (apply nth_error_nth'; lia).
      split; [exact HN|]. rewrite Forall_forall in Hloads. apply Hloads. eapply nth_error_In. exact HN.
    Qed.

    Lemma gen_call t y : 1 <= t <= g_tend p -> is_nonnegative v y ->
      exists c, call_predictive (g_cost p) t [y] = Ok [c] /\ eeq (c_cost c) (load_cost (slot_load t) t (v_toQ v y)).
    Proof.
      intros Ht Hy. destruct (slot_profile t Ht) as [HN HP]. destruct (hits_load_cost v t y (slot_load t) HP Hy) as (c & Hc & Ec).
      exists c. split; [|exact Ec]. rewrite <- (ssco_costs powf m v ofZ minimize loads p t [y] (slot_load t) Hgen ltac:(lia) HN) in Hc.
      rewrite call_certain_of_predictive in Hc. destruct (call_predictive (g_cost p) t [y]) as [rs| |]; cbn [obind] in Hc; try discriminate.
      destruct rs as [|r [|? ?]]; try discriminate. congruence.
    Qed.

    Lemma gen_mean t y : 1 <= t <= g_tend p -> is_nonnegative v y ->
      exists c, call_mean dc_vmerge (g_cost p) t [y] = Ok c /\ eeq (c_cost c) (load_cost (slot_load t) t (v_toQ v y)).
    Proof.
      intros Ht Hy. destruct (gen_call t y Ht Hy) as (c & Hc & Ec). rewrite call_mean_of_predictive, Hc. cbn [obind].
      pose proof (cost_mean_single dc_vmerge c) as H. destruct (cost_mean dc_vmerge [c]) as [c'| |]; try contradiction.
      exists c'. split; [reflexivity|]. eapply eeq_trans; [apply H|exact Ec].
    Qed.

    Lemma gen_hit t y : (v_toQ v (v_zero v) == 0)%Q -> 1 <= t <= g_tend p -> in_box v (g_bounds p) [y] ->
      exists c, gssco_hit v dc_vmerge OutsideDecisionSpace p t [y] = Ok c /\ eeq (c_cost c) (load_cost (slot_load t) t (v_toQ v y)).
    Proof.
      intros HZ Ht Hy. rewrite gssco_hit_inside by assumption. apply gen_mean; [exact Ht|].
      inversion Hy as [|? ? ? ? Hb _]; subst. destruct Hb as [Hb _]. unfold is_nonnegative. exact Hb.
    Qed.

    Lemma gen_shape : (forall z, v_toQ v (ofZ z) == inject_Z z)%Q ->
      exists cap c, lookup (lo_m l) (st_key st) = Ok cap /\ g_bounds p = [ofZ cap] /\
        lookup (dc_switching m) (st_key st) = Ok c /\ g_switching p = [switching_cost_of c] /\ g_d p = 1.
    Proof.
      intros HZ. destruct (ssco_generated powf m T v ofZ minimize loads p HZ Hgen) as (G1 & _ & G3 & G4 & G5 & G6 & _).
      rewrite (ot_location _ _ _ _ _ _ _ HO) in *. rewrite (ot_type _ _ _ _ _ _ _ HO) in *. cbn [length] in *.
      destruct (G4 0%nat 0%nat l st eq_refl eq_refl) as (cap & E1 & E2). destruct (G6 0%nat st eq_refl) as (c & E3 & E4).
      exists cap, c. rewrite G1 in G3. cbn in E2.
      destruct (g_bounds p) as [|b [|? ?]]; cbn [length] in G3; try lia. destruct (g_switching p) as [|s [|? ?]]; cbn [length] in G5; try lia.
      cbn in E2, E4. repeat split; try assumption; congruence.
    Qed.
  End Generated.
End Instance.
