(** Proofs about the objective and the instances of the data-centre model. *)
From Coq Require Import Lia Lqa Setoid Qminmax.
From Verif Require Import NumLemmas VerifyModel VerifyProofs DataCenterModel DataCenterSpec DataCenterParts DataCenterProofs LoadObjective.
From Verif Require Import ProblemModel CostModel.
Local Open Scope Z_scope.

(** ** The objective *)
Lemma objective_value (powf : Q -> Q -> Q) (m : data_center) price power revenue (T : Type) (v : value T) t x lambda zs loads :
  described powf m price power revenue -> length x = dc_d m -> Forall (is_nonnegative v) x ->
  (forall k, (k < dc_d m)%nat -> select_loads zs lambda k = Ok (loads k) /\ length (loads k) = dc_e m /\ Forall (fun l => 0 <= l)%Q (loads k)) ->
  let active j k := v_toQ v (nth (j * length (dc_server_types m) + k) x (v_zero v)) in
  let served j k := loads (j * length (dc_server_types m) + k)%nat in
  exists o, dc_objective_of powf m v t x lambda zs = Ok o /\
    ((forall j k st, (j < length (dc_locations m))%nat -> nth_error (dc_server_types m) k = Some st -> supported m st (active j k) (served j k)) ->
     exists e r, o = ROk (Fin e, Fin r) /\
       (e == over_locations m (fun j l => price l t * over_types m (fun j k l st => type_energy m power st (active j k) (served j k)) j))%Q /\
       (r == over_locations m (fun j l => over_types m (fun j k l st => type_revenue m revenue t l st (active j k) (served j k)) j))%Q) /\
    ((exists j k st, (j < length (dc_locations m))%nat /\ nth_error (dc_server_types m) k = Some st /\ ~ supported m st (active j k) (served j k)) ->
     forall e r, o <> ROk (Fin e, Fin r)).
Proof.
  intros HD HL HF Hloads. cbv zeta. set (units := fun k => nth k x (v_zero v)).
  assert (Hx : forall k, (k < dc_d m)%nat -> nth_error x k = Some (units k) /\ (0 <= v_toQ v (units k))%Q).
  { intros k Hk. assert (E : nth_error x k = Some (units k)) by (apply nth_error_nth'; lia). split; [exact E|]. rewrite Forall_forall in HF. apply (HF (units k)). eapply nth_error_In; exact E. }
  change (dc_objective_of powf m v t x lambda zs) with (sum_first obj_add (Fin 0, Fin 0) (map (location_term powf m v t x lambda zs) (seq 0 (length (dc_locations m))))).
  assert (HN : forall j, In j (seq 0 (length (dc_locations m))) -> exists l, nth_error (dc_locations m) j = Some l).
  { intros j Hj. apply in_seq in Hj. destruct (nth_error (dc_locations m) j) as [l|] eqn:E; [eauto|apply nth_error_None in E; lia]. }
  assert (HA : forall j, In j (seq 0 (length (dc_locations m))) -> answered (location_term powf m v t x lambda zs j)).
  { intros j Hj. destruct (HN j Hj) as [l Hl]. exact (location_answered powf m price power revenue HD v t x lambda zs loads units Hx Hloads j l Hl). }
  assert (HO : answered (sum_first obj_add (Fin 0, Fin 0) (map (location_term powf m v t x lambda zs) (seq 0 (length (dc_locations m)))))).
  { destruct (seq 0 (length (dc_locations m))) as [|j0 js]; [eexists; reflexivity|]. cbn [map sum_first]. destruct (HA j0 (or_introl eq_refl)) as [[e|e] E]; rewrite E; cbn [rbind obind]; [|eexists; reflexivity].
    assert (HA' : forall j, In j js -> answered (location_term powf m v t x lambda zs j)) by (intros; apply HA; right; assumption). clear - HA'. revert e.
    induction js as [|j js IH]; intros e; cbn [map sum_results]; [eexists; reflexivity|]. destruct (HA' j (or_introl eq_refl)) as [[e'|e'] E]; rewrite E; cbn [rbind obind]; [|eexists; reflexivity].
    apply IH. intros; apply HA'; right; assumption. }
  destruct HO as [o EO]. exists o. split; [exact EO|]. split.
  - intros HS.
    destruct (pairs_first_finite (location_term powf m v t x lambda zs)
      (fun j => match nth_error (dc_locations m) j with Some l => price l t * energy_sum m power v loads units j | None => 0 end)%Q
      (fun j => match nth_error (dc_locations m) j with Some l => revenue_sum m revenue v t loads units j | None => 0 end)%Q (seq 0 (length (dc_locations m)))) as (e & r & E & E1 & E2).
    { intros j Hj. destruct (HN j Hj) as [l Hl]. rewrite Hl. apply (location_finite powf m price power revenue HD v t x lambda zs loads units Hx Hloads j l Hl).
      intros k st Hk. apply in_seq in Hj. apply (HS j k st); [lia|exact Hk]. }
    rewrite E in EO. exists e, r. split; [congruence|]. split; [rewrite E1|rewrite E2]; reflexivity.
  - intros (j & k & st & Hj & Hk & HNS) e r ->. assert (HIj : In j (seq 0 (length (dc_locations m)))) by (apply in_seq; lia). destruct (HN j HIj) as [l Hl].
    apply (proj2 (pairs_first_infinite (location_term powf m v t x lambda zs) (seq 0 (length (dc_locations m))) HA (ex_intro _ j (conj HIj
      (location_infinite powf m price power revenue HD v t x lambda zs loads units Hx Hloads j l k st Hl Hk HNS))))). exists e, r. exact EO.
Qed.

(** ** Instances *)
Lemma omap_all {A B} (f : A -> outcome B) l : forall r, omap f l = Ok r <-> Forall2 (fun a b => f a = Ok b) l r.
Proof.
  induction l as [|a l IH]; intros r; cbn [omap].
  - split; intros H; [injection H as <-; constructor|inversion H; reflexivity].
  - destruct (f a) as [b| |] eqn:E; cbn [obind].
    + destruct (omap f l) as [bs| |]; cbn [obind].
      * split; intros H; [injection H as <-; constructor; [exact E|apply IH; reflexivity]|]. inversion H; subst. assert (b = y) by congruence. subst.
        match goal with H' : Forall2 _ l _ |- _ => apply IH in H' end. congruence.
      * split; intros H; [discriminate|]. inversion H; subst. match goal with H' : Forall2 _ l _ |- _ => apply IH in H' end. discriminate.
      * split; intros H; [discriminate|]. inversion H; subst. match goal with H' : Forall2 _ l _ |- _ => apply IH in H' end. discriminate.
    + split; intros H; [discriminate|]. inversion H; subst. congruence.
    + split; intros H; [discriminate|]. inversion H; subst. congruence.
Qed.
Lemma forall2_length {A B} (R : A -> B -> Prop) l l' : Forall2 R l l' -> length l = length l'.
Proof. induction 1; cbn; congruence. Qed.
Lemma forall2_nth {A B} (R : A -> B -> Prop) l l' : Forall2 R l l' -> forall i a, nth_error l i = Some a -> exists b, nth_error l' i = Some b /\ R a b.
Proof. induction 1; intros [|i] c H1; cbn in *; try discriminate; [injection H1 as <-; eauto|auto]. Qed.

Lemma nth_error_seq n i : (i < n)%nat -> nth_error (seq 0 n) i = Some i.
Proof. intros H. rewrite (nth_error_nth' _ 0%nat) by (rewrite seq_length; exact H). rewrite seq_nth by exact H. reflexivity. Qed.

(** Bounds list the capacities. *)
Lemma bounds_generated (m : data_center) (T : Type) (ofZ : Z -> T) bounds : generate_bounds m ofZ = Ok bounds ->
  length bounds = dc_d m /\
  forall j k l st, nth_error (dc_locations m) j = Some l -> nth_error (dc_server_types m) k = Some st ->
    exists c, lookup (lo_m l) (st_key st) = Ok c /\ nth_error bounds (j * length (dc_server_types m) + k) = Some (ofZ c).
Proof.
  intros H. apply omap_all in H. split; [apply forall2_length in H; rewrite seq_length in H; auto|].
  intros j k l st Hj Hk. assert (HJ : (j < length (dc_locations m))%nat) by (apply nth_error_Some; congruence).
  assert (HK : (k < length (dc_server_types m))%nat) by (apply nth_error_Some; congruence).
  assert (HI : (j * length (dc_server_types m) + k < dc_d m)%nat) by (unfold dc_d; nia).
  destruct (forall2_nth _ _ _ H _ _ (nth_error_seq _ _ HI)) as (b & Hb & E).
  change (j * length (dc_server_types m) + k)%nat with (encode (length (dc_server_types m)) j k) in E at 1.
  rewrite (proj2 (proj1 (encoding_bijection (length (dc_server_types m)) (length (dc_locations m))) j k HJ HK)) in E. cbn [obind fst snd] in E.
  unfold index in E. rewrite Hj, Hk in E. cbn [from_option obind] in E. destruct (lookup (lo_m l) (st_key st)) as [c| |]; cbn [obind] in E; try discriminate.
  exists c. split; [reflexivity|]. congruence.
Qed.

Lemma bounds_exist (m : data_center) (T : Type) (ofZ : Z -> T) :
  (forall l st, In l (dc_locations m) -> In st (dc_server_types m) -> exists c, lookup (lo_m l) (st_key st) = Ok c) ->
  exists bounds, generate_bounds m ofZ = Ok bounds.
Proof.
  intros H. unfold generate_bounds. assert (HI : forall i, In i (seq 0 (dc_d m)) -> (i < dc_d m)%nat) by (intros i Hi; apply in_seq in Hi; lia).
  induction (seq 0 (dc_d m)) as [|i is IH]; [eexists; reflexivity|]. cbn [omap].
  destruct (proj2 (encoding_bijection (length (dc_server_types m)) (length (dc_locations m))) i (HI i (or_introl eq_refl))) as (j & k & E & HJ & HK & _). rewrite E. cbn [obind fst snd]. unfold index at 1 2.
  destruct (nth_error (dc_locations m) j) as [l|] eqn:Ej; [|apply nth_error_None in Ej; lia]. destruct (nth_error (dc_server_types m) k) as [st|] eqn:Ek; [|apply nth_error_None in Ek; lia].
  cbn [from_option obind]. destruct (H l st (nth_error_In _ _ Ej) (nth_error_In _ _ Ek)) as [c Ec]. rewrite Ec. cbn [obind].
  destruct IH as [bs Eb]; [intros; apply HI; right; assumption|]. rewrite Eb. eexists; reflexivity.
Qed.

Lemma switching_listed models types l : switching_costs models types = Ok l ->
  length l = length types /\
  forall k st, nth_error types k = Some st -> exists c, lookup models (st_key st) = Ok c /\ nth_error l k = Some (switching_cost_of c).
Proof.
  intros H. apply omap_all in H. split; [symmetry; exact (forall2_length _ _ _ H)|]. intros k st Hk. destruct (forall2_nth _ _ _ H _ _ Hk) as (b & Hb & E).
  destruct (lookup models (st_key st)) as [c| |]; cbn [obind] in E; try discriminate. exists c. split; [reflexivity|]. congruence.
Qed.

Lemma positive_bounds (m : data_center) (T : Type) (v : value T) (ofZ : Z -> T) bounds : (forall z, v_toQ v (ofZ z) == inject_Z z)%Q -> generate_bounds m ofZ = Ok bounds ->
  (Forall (is_positive v) bounds <-> positive_capacities m).
Proof.
  intros HZ H. destruct (bounds_generated m T ofZ bounds H) as [HL HB]. split.
  - intros HF l st c Hl Hst Hc. apply In_nth_error in Hl, Hst. destruct Hl as [j Hj], Hst as [k Hk]. destruct (HB j k l st Hj Hk) as (c' & Ec & Eb). assert (c' = c) by congruence. subst.
    rewrite Forall_forall in HF. pose proof (HF _ (nth_error_In _ _ Eb)) as HP. unfold is_positive in HP. rewrite HZ in HP. change 0%Q with (inject_Z 0) in HP. rewrite <- Zlt_Qlt in HP. exact HP.
  - intros HP. apply Forall_forall. intros b Hb. apply In_nth_error in Hb. destruct Hb as [i Hi].
    assert (HI : (i < dc_d m)%nat) by (rewrite <- HL; apply nth_error_Some; congruence).
    destruct (proj2 (encoding_bijection (length (dc_server_types m)) (length (dc_locations m))) i HI) as (j & k & E & HJ & HK & EE).
    destruct (nth_error (dc_locations m) j) as [l|] eqn:Ej; [|apply nth_error_None in Ej; lia]. destruct (nth_error (dc_server_types m) k) as [st|] eqn:Ek; [|apply nth_error_None in Ek; lia].
    destruct (HB j k l st Ej Ek) as (c & Ec & Eb). unfold encode in EE. rewrite EE in Eb. assert (b = ofZ c) by congruence. subst b. unfold is_positive. rewrite HZ.
    pose proof (HP l st c (nth_error_In _ _ Ej) (nth_error_In _ _ Ek) Ec). change 0%Q with (inject_Z 0). rewrite <- Zlt_Qlt. assumption.
Qed.
Lemma positive_costs (m : data_center) l : switching_costs (dc_switching m) (dc_server_types m) = Ok l -> (Forall (fun b => 0 < b)%Q l <-> positive_switching m).
Proof.
  intros H. destruct (switching_listed _ _ _ H) as [HL HB]. split.
  - intros HF st c Hst Hc. apply In_nth_error in Hst. destruct Hst as [k Hk]. destruct (HB k st Hk) as (c' & Ec & Eb). assert (c' = c) by congruence. subst. rewrite Forall_forall in HF. exact (HF _ (nth_error_In _ _ Eb)).
  - intros HP. apply Forall_forall. intros b Hb. apply In_nth_error in Hb. destruct Hb as [k Hk]. assert (HK : (k < length (dc_server_types m))%nat) by (rewrite <- HL; apply nth_error_Some; congruence).
    destruct (nth_error (dc_server_types m) k) as [st|] eqn:Ek; [|apply nth_error_None in Ek; lia]. destruct (HB k st Ek) as (c & Ec & Eb). assert (b = switching_cost_of c) by congruence. subst. exact (HP st c (nth_error_In _ _ Ek) Ec).
Qed.

Lemma base_verified (m : data_center) (T : Type) (v : value T) (ofZ : Z -> T) bounds switching (n : nat) : (forall z, v_toQ v (ofZ z) == inject_Z z)%Q ->
  generate_bounds m ofZ = Ok bounds -> switching_costs (dc_switching m) (dc_server_types m) = Ok switching ->
  (well_formed_base v (Z.of_nat (dc_d m)) (Z.of_nat n) bounds switching <->
   (length (dc_locations m) = 1%nat /\ dc_server_types m <> [] /\ positive_capacities m /\ positive_switching m)).
Proof.
  intros HZ HB HS. rewrite <- (positive_bounds m T v ofZ bounds HZ HB), <- (positive_costs m switching HS).
  pose proof (proj1 (bounds_generated m T ofZ bounds HB)) as L1. pose proof (proj1 (switching_listed _ _ _ HS)) as L2. unfold well_formed_base. rewrite L1, L2.
  assert (HT : dc_server_types m <> [] <-> (0 < length (dc_server_types m))%nat) by (destruct (dc_server_types m); cbn; split; intros; try lia; try congruence; discriminate).
  rewrite HT. unfold dc_d. split; intros H.
  - destruct H as (H1 & H2 & H3 & H4 & H5 & H6). split; [|split; [|tauto]]; nia.
  - destruct H as (H1 & H2 & H5 & H6). rewrite H1. repeat split; try assumption; try lia.
Qed.

Lemma ssco_generated (powf : Q -> Q -> Q) (m : data_center) (T : Type) (v : value T) (ofZ : Z -> T) minimize loads p : (forall z, v_toQ v (ofZ z) == inject_Z z)%Q ->
  to_ssco powf m v ofZ minimize loads = Ok p ->
  g_d p = Z.of_nat (length (dc_locations m) * length (dc_server_types m)) /\ g_tend p = Z.of_nat (length loads) /\
  Z.of_nat (length (g_bounds p)) = g_d p /\
  (forall j k l st, nth_error (dc_locations m) j = Some l -> nth_error (dc_server_types m) k = Some st ->
    exists c, lookup (lo_m l) (st_key st) = Ok c /\ nth_error (g_bounds p) (j * length (dc_server_types m) + k) = Some (ofZ c)) /\
  length (g_switching p) = length (dc_server_types m) /\
  (forall k st, nth_error (dc_server_types m) k = Some st -> exists c, lookup (dc_switching m) (st_key st) = Ok c /\ nth_error (g_switching p) k = Some (switching_cost_of c)) /\
  (verify_ssco v p = Ok tt <-> length (dc_locations m) = 1%nat /\ dc_server_types m <> [] /\ positive_capacities m /\ positive_switching m) /\
  (verify_ssco v p = Ok tt \/ verify_ssco v p = Err Invalid).
Proof.
  intros HZ. unfold to_ssco. destruct (generate_bounds m ofZ) as [bounds| |] eqn:HB; cbn [obind]; try discriminate.
  destruct (switching_costs (dc_switching m) (dc_server_types m)) as [switching| |] eqn:HS; cbn [obind]; try discriminate.
  intros H. match type of H with Ok ?q = _ => set (q0 := q) in * end. assert (q0 = p) by congruence. subst p.
  destruct (bounds_generated m T ofZ bounds HB) as [B1 B2]. destruct (switching_listed _ _ _ HS) as [S1 S2].
  destruct (ssco_verified T _ _ v q0) as [V1 V2]. split; [reflexivity|]. split; [reflexivity|]. split; [unfold q0; cbn [g_bounds g_d]; congruence|]. split; [exact B2|]. split; [exact S1|]. split; [exact S2|].
  split; [|exact V2]. rewrite V1. exact (base_verified m T v ofZ bounds switching (length loads) HZ HB HS).
Qed.

Lemma setting_single m l : single_setting m = Ok l -> dc_locations m = [l] /\ length (dc_sources m) = 1%nat /\ length (dc_job_types m) = 1%nat.
Proof.
  unfold single_setting. destruct (dc_locations m) as [|l0 [|? ?]], (dc_sources m) as [|? [|? ?]], (dc_job_types m) as [|? [|? ?]]; try discriminate. intros H. injection H as ->. auto.
Qed.

Lemma loads_listed {T} (cast : Q -> T) loads l : single_loads cast loads = Ok l ->
  Forall2 (fun lambda y => exists q r, lambda = q :: r /\ y = cast q) loads l.
Proof.
  intros H. apply omap_all in H. induction H as [|a b ls r E _ IH]; constructor; [|exact IH]. destruct a as [|q a]; cbn in E; [discriminate|]. exists q, a. split; congruence.
Qed.

Lemma sblo_generated (powf : Q -> Q -> Q) (m : data_center) (T : Type) (v : value T) (ofZ : Z -> T) (cast : Q -> T) loads p :
  (forall z, v_toQ v (ofZ z) == inject_Z z)%Q -> (forall q, 0 <= q -> 0 <= v_toQ v (cast q))%Q -> Forall (Forall (fun l => 0 <= l)%Q) loads ->
  to_sblo powf m ofZ cast loads = Ok p ->
  b_d p = Z.of_nat (length (dc_server_types m)) /\ b_tend p = Z.of_nat (length loads) /\
  (forall k st, nth_error (dc_server_types m) k = Some st ->
    exists l c c', dc_locations m = [l] /\ lookup (lo_m l) (st_key st) = Ok c /\ nth_error (b_bounds p) k = Some (ofZ c) /\
      lookup (dc_switching m) (st_key st) = Ok c' /\ nth_error (b_switching p) k = Some (switching_cost_of c')) /\
  Forall2 (fun lambda y => exists q r, lambda = q :: r /\ y = cast q) loads (b_load p) /\
  (verify_sblo v p = Ok tt <-> dc_server_types m <> [] /\ positive_capacities m /\ positive_switching m) /\
  (verify_sblo v p = Ok tt \/ verify_sblo v p = Err Invalid).
Proof.
  intros HZ HC HF. unfold to_sblo. destruct (single_setting m) as [l| |] eqn:E1; cbn [obind]; try discriminate.
  destruct (setting_single m l E1) as (EL & _ & _).
  destruct (generate_bounds m ofZ) as [bounds| |] eqn:HB; cbn [obind]; try discriminate.
  destruct (switching_costs (dc_switching m) (dc_server_types m)) as [switching| |] eqn:HS; cbn [obind]; try discriminate.
  destruct (single_loads cast loads) as [load| |] eqn:HLo; cbn [obind]; try discriminate.
  intros H. match type of H with Ok ?q = _ => set (q0 := q) in * end. assert (q0 = p) by congruence. subst p.
  destruct (bounds_generated m T ofZ bounds HB) as [B1 B2]. destruct (switching_listed _ _ _ HS) as [S1 S2]. pose proof (loads_listed cast loads load HLo) as LL.
  destruct (sblo_verified T v q0) as [V1 V2]. split; [unfold q0, dc_d; cbn [b_d]; rewrite EL; cbn [length]; f_equal; lia|]. split; [reflexivity|]. split.
  { intros k st Hk. destruct (B2 0%nat k l st) as (c & C1 & C2); [rewrite EL; reflexivity|exact Hk|]. destruct (S2 k st Hk) as (c' & C1' & C2'). exists l, c, c'. auto. }
  split; [exact LL|]. split; [|exact V2]. rewrite V1. unfold well_formed_sblo. cbn [q0 b_d b_tend b_bounds b_switching b_load].
  change (b_d q0) with (Z.of_nat (dc_d m)). change (b_tend q0) with (Z.of_nat (length loads)). change (b_bounds q0) with bounds. change (b_switching q0) with switching. change (b_load q0) with load.
  rewrite (base_verified m T v ofZ bounds switching (length loads) HZ HB HS). rewrite EL.
  assert (HW : well_formed_loads v (Z.of_nat (length loads)) load).
  { split; [rewrite (forall2_length _ _ _ LL); lia|]. intros t y Ht Hy. assert (HIn : In y load). { unfold access in Hy. destruct ((1 <=? t) && (t <=? Z.of_nat (length load)))%bool; [|discriminate Hy]. eapply nth_error_In; exact Hy. }
    clear - LL HF HC HIn. induction LL as [|a b ls r (q & rr & -> & ->) _ IH]; [destruct HIn|]. inversion HF as [|? ? HF1 HF2]; subst. inversion HF1; subst. destruct HIn as [<-|HIn]; [apply HC; assumption|apply IH; assumption]. }
  cbn [length]. split; intros; tauto.
Qed.

(** SLO *)
Lemma qsum_factor {A} (f : A -> Q) (p : Q) l : (Qsum (map (fun t => f t * p) l) == Qsum (map f l) * p)%Q.
Proof. induction l as [|a l IH]; cbn [map Qsum]; [ring|]. rewrite IH. ring. Qed.

Lemma average_linear (powf : Q -> Q -> Q) (m : data_center) models l price st p n : dc_cost m = ELinear models -> lookup models (lo_key l) = Ok price ->
  consumption powf (dc_consumption m) (dc_delta m) st 1 = Ok p -> (0 < n)%nat ->
  exists c, average_cost powf m l n st = Ok c /\ (c == Qsum (map (fun t => price (Z.of_nat t)) (seq 0 n)) / inject_Z (Z.of_nat n) * p)%Q.
Proof.
  intros EC HP HC Hn. unfold average_cost. rewrite HC, EC. cbn [obind energy_model_cost]. rewrite (proj2 (Nat.ltb_lt 0 n) Hn).
  assert (E : omap (fun t : nat => do c <- (do cost <- lookup models (lo_key l); emul (cost (Z.of_nat t)) (Fin p)); match c with Fin q => Ok q | Inf => Panic end) (seq 0 n) = Ok (map (fun t => (price (Z.of_nat t) * p)%Q) (seq 0 n))).
  { rewrite HP. induction (seq 0 n) as [|t ts IH]; [reflexivity|]. cbn [omap map]. cbn [obind emul]. cbn [obind emul] in IH. rewrite IH. reflexivity. }
  rewrite E. cbn [obind]. eexists. split; [reflexivity|]. rewrite qsum_factor. assert (~ inject_Z (Z.of_nat n) == 0)%Q. { intros H. change 0%Q with (inject_Z 0) in H. rewrite inject_Z_injective in H. lia. }
  field. assumption.
Qed.

Lemma slo_generated (powf : Q -> Q -> Q) (m : data_center) (T : Type) (v : value T) (ofZ : Z -> T) (cast : Q -> T) loads p :
  to_slo powf m ofZ cast loads = Ok p ->
  l_d p = Z.of_nat (length (dc_server_types m)) /\ l_tend p = Z.of_nat (length loads) /\
  length (l_bounds p) = length (dc_server_types m) /\ length (l_switching p) = length (dc_server_types m) /\ length (l_hitting p) = length (dc_server_types m) /\
  (forall k st, nth_error (dc_server_types m) k = Some st ->
    exists l c c' h, dc_locations m = [l] /\ lookup (lo_m l) (st_key st) = Ok c /\ nth_error (l_bounds p) k = Some (ofZ c) /\
      lookup (dc_switching m) (st_key st) = Ok c' /\ nth_error (l_switching p) k = Some (switching_cost_of c') /\
      average_cost powf m l (length loads) st = Ok h /\ nth_error (l_hitting p) k = Some h) /\
  Forall2 (fun lambda y => exists q r, lambda = q :: r /\ y = cast q) loads (l_load p).
Proof.
  unfold to_slo. destruct (single_setting m) as [l| |] eqn:E1; cbn [obind]; try discriminate.
  destruct (setting_single m l E1) as (EL & _ & _).
  destruct (generate_bounds m ofZ) as [bounds| |] eqn:HB; cbn [obind]; try discriminate.
  destruct (switching_costs (dc_switching m) (dc_server_types m)) as [switching| |] eqn:HS; cbn [obind]; try discriminate.
  destruct (omap (average_cost powf m l (length loads)) (dc_server_types m)) as [hitting| |] eqn:HH; cbn [obind]; try discriminate.
  destruct (single_loads cast loads) as [load| |] eqn:HLo; cbn [obind]; try discriminate.
  intros H. match type of H with Ok ?q = _ => set (q0 := q) in * end. assert (q0 = p) by congruence. subst p.
  destruct (bounds_generated m T ofZ bounds HB) as [B1 B2]. destruct (switching_listed _ _ _ HS) as [S1 S2]. pose proof (loads_listed cast loads load HLo) as LL. apply omap_all in HH.
  assert (ED : dc_d m = length (dc_server_types m)) by (unfold dc_d; rewrite EL; cbn [length]; lia).
  split; [unfold q0; cbn [l_d]; congruence|]. split; [reflexivity|]. split; [unfold q0; cbn [l_bounds]; congruence|]. split; [exact S1|]. split; [symmetry; exact (forall2_length _ _ _ HH)|]. split; [|exact LL].
  intros k st Hk. destruct (B2 0%nat k l st) as (c & C1 & C2); [rewrite EL; reflexivity|exact Hk|]. destruct (S2 k st Hk) as (c' & C1' & C2'). destruct (forall2_nth _ _ _ HH _ _ Hk) as (h & Hh & Eh).
  exists l, c, c', h. auto 10.
Qed.

(** The cost of a single server in an SBLO instance. *)
Lemma server_cost_linear (powf : Q -> Q -> Q) (m : data_center) models l price st p t s : dc_cost m = ELinear models -> lookup models (lo_key l) = Ok price -> (0 < price t)%Q ->
  consumption powf (dc_consumption m) (dc_delta m) st s = Ok p ->
  server_cost powf m l st t s = Ok (mkCost (if Qle_bool s (st_max_utilization st) then Fin (price t * p) else Inf) (MSuccess tt)).
Proof.
  intros EC HP Hpos HC. unfold server_cost, limit_utilization. rewrite HC, EC. cbn [obind energy_model_cost]. rewrite HP. cbn [obind].
  destruct (Qle_bool s (st_max_utilization st)); cbn [obind emul]; [reflexivity|]. rewrite (proj2 (Qltb_iff _ _) Hpos). reflexivity.
Qed.

(** ** Switching costs, costs of the generated smoothed problem *)
Lemma switching_components c phi_min phi_max epsilon delta tau rho :
  (switching_cost_of (mkSwitching c phi_min phi_max epsilon delta tau rho) ==
   c * epsilon + delta * (c * phi_max) + tau + rho)%Q.
Proof. unfold switching_cost_of. cbn. ring. Qed.

Lemma break_even c delta r : normalized_switching_cost c delta = Ok r ->
  (r * (sw_energy_cost c * (delta * sw_phi_min c)) == switching_cost_of c)%Q.
Proof.
  unfold normalized_switching_cost. destruct (Qeq_bool _ 0) eqn:E; [discriminate|]. intros H. injection H as <-.
  apply Qeq_bool_neq in E. set (q := (sw_energy_cost c * delta * sw_phi_min c)%Q) in *.
  assert (sw_energy_cost c * (delta * sw_phi_min c) == q)%Q as G by (unfold q; ring). rewrite G. field. exact E.
Qed.

Lemma break_even_all m slot types l : normalized_switching_costs m slot types = Ok l ->
  Forall2 (fun st r => exists c, lookup m (st_key st) = Ok c /\
    (r * (sw_energy_cost c * (slot * sw_phi_min c)) == switching_cost_of c)%Q) types l.
Proof.
  unfold normalized_switching_costs. intros H. apply omap_all in H. induction H as [|st r types l H1 _ IH]; constructor; auto.
  apply obind_Ok in H1 as (c & Hc & Hr). exists c. split; auto. apply break_even. exact Hr.
Qed.

Lemma ssco_costs powf m {T} (v : value T) ofZ minimize loads p t x lambda :
  to_ssco powf m v ofZ minimize loads = Ok p -> 1 <= t -> nth_error loads (Z.to_nat (t - 1)) = Some lambda ->
  call_certain (g_cost p) t x = apply_loads v minimize (dc_d m) (dc_e m) (dc_objective_of powf m v) lambda t x.
Proof.
  unfold to_ssco. intros H Ht Hl. apply obind_Ok in H as (b & _ & H). apply obind_Ok in H as (s & _ & H). injection H as <-.
  cbn [g_cost]. rewrite loads_over_time by lia. rewrite (proj2 (Z.ltb_ge t 1)) by lia. rewrite Hl. reflexivity.
Qed.
Lemma ssco_costs_outside powf m {T} (v : value T) ofZ minimize loads p t x :
  to_ssco powf m v ofZ minimize loads = Ok p -> t < 1 \/ Z.of_nat (length loads) < t ->
  call_certain (g_cost p) t x = Panic.
Proof.
  unfold to_ssco. intros H Ht. apply obind_Ok in H as (b & _ & H). apply obind_Ok in H as (s & _ & H). injection H as <-.
  cbn [g_cost]. rewrite loads_over_time by lia. destruct (t <? 1) eqn:E; [reflexivity|]. apply Z.ltb_ge in E.
  rewrite (proj2 (nth_error_None _ _)) by lia. reflexivity.
Qed.
