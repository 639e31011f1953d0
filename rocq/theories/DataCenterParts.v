(** Proofs about the parts of the data-centre model. *)
From Coq Require Import Lia Lqa Setoid Permutation Sorted Qminmax.
From Verif Require Import NumLemmas OutputSpec ObjectiveSpec ObjectiveProofs DataCenterModel DataCenterSpec.
From Verif Require Import ProblemModel CostModel.
Local Open Scope Z_scope.

(** ** Delay *)
Lemma inv_lt a b : (0 < a)%Q -> (0 < b)%Q -> (1 / a < 1 / b <-> b < a)%Q.
Proof.
  intros Ha Hb. split; intros H.
  - assert (1 / a * (a * b) == b)%Q by (field; lra). assert (1 / b * (a * b) == a)%Q by (field; lra).
    assert (1 / a * (a * b) < 1 / b * (a * b))%Q by (apply Qmult_lt_r; [nra|exact H]). lra.
  - apply Qlt_shift_div_l; [lra|]. assert (E : (1 / a * b == b / a)%Q) by (field; lra). rewrite E. apply Qlt_shift_div_r; lra.
Qed.
Lemma inv_le a b : (0 < a)%Q -> (0 < b)%Q -> (1 / a <= 1 / b <-> b <= a)%Q.
Proof. intros Ha Hb. pose proof (inv_lt b a Hb Ha). split; intros; destruct (Qlt_le_dec a b); destruct (Qlt_le_dec (1 / b) (1 / a)); try lra; tauto || lra. Qed.

Lemma delay_idle delta n d : (n <= 0)%Q \/ (d <= 0)%Q -> average_delay delta n d = Fin 0.
Proof.
  intros H. unfold average_delay. destruct (Qltb 0 n) eqn:E1, (Qltb 0 d) eqn:E2; cbn [andb]; try reflexivity.
  apply Qltb_iff in E1, E2. lra.
Qed.
Lemma delay_busy delta n d : (0 < delta)%Q -> (0 < n)%Q -> (0 < d)%Q ->
  average_delay delta n d = if Qltb (n / delta) (1 / d) then Fin (1 / (1 / d - n / delta)) else Inf.
Proof.
  intros H0 H1 H2. unfold average_delay. rewrite (proj2 (Qltb_iff _ _) H1), (proj2 (Qltb_iff _ _) H2). cbn [andb].
  destruct (Qeq_bool delta 0) eqn:E; [apply Qeq_bool_iff in E; lra|]. reflexivity.
Qed.
Lemma div_nonneg a b : (0 <= a)%Q -> (0 < b)%Q -> (0 <= a / b)%Q.
Proof. intros. apply Qle_shift_div_l; [assumption|lra]. Qed.
Lemma div_pos a b : (0 < a)%Q -> (0 < b)%Q -> (0 < a / b)%Q.
Proof. intros. apply Qlt_shift_div_l; [assumption|lra]. Qed.
Lemma div_le a b c : (0 < c)%Q -> (a <= b)%Q -> (a / c <= b / c)%Q.
Proof. intros Hc H. apply Qle_shift_div_l; [exact Hc|]. assert (a / c * c == a)%Q by (field; lra). lra. Qed.

Lemma delay_positive delta n d : (0 < delta)%Q -> (0 < n)%Q -> (0 < d)%Q -> ele (Fin d) (average_delay delta n d).
Proof.
  intros H0 H1 H2. rewrite (delay_busy _ _ _ H0 H1 H2). destruct (Qltb (n / delta) (1 / d)) eqn:E; [|exact I]. apply Qltb_iff in E. cbn.
  pose proof (div_pos n delta H1 H0). assert (HD : (d == 1 / (1 / d))%Q) by (field; lra). rewrite HD at 1.
  apply inv_le; [|lra|lra]. apply div_pos; lra.
Qed.

Lemma delay_nonneg delta n d : (0 < delta)%Q -> ele (Fin 0) (average_delay delta n d).
Proof.
  intros H0. destruct (Qlt_le_dec 0 n) as [H1|H1]; [destruct (Qlt_le_dec 0 d) as [H2|H2]|].
  - pose proof (delay_positive delta n d H0 H1 H2). destruct (average_delay delta n d); cbn in *; [lra|exact I].
  - rewrite delay_idle by (right; exact H2). cbn. lra.
  - rewrite delay_idle by (left; exact H1). cbn. lra.
Qed.

Lemma delay_monotone delta delta' n n' d d' : (0 < delta')%Q -> (delta' <= delta)%Q -> (n <= n')%Q -> (d <= d')%Q ->
  ele (average_delay delta n d) (average_delay delta' n' d').
Proof.
  intros H0 H0' Hn Hd. destruct (Qlt_le_dec 0 n) as [H1|H1]; [destruct (Qlt_le_dec 0 d) as [H2|H2]|].
  - rewrite (delay_busy delta n d) by lra. rewrite (delay_busy delta' n' d') by lra.
    assert (HA : (n / delta <= n' / delta')%Q).
    { assert (n / delta <= n' / delta)%Q by (apply div_le; lra). assert (n' / delta <= n' / delta')%Q; [|lra].
      apply Qle_shift_div_l; [lra|]. assert (E : (n' / delta * delta' == n' * (delta' / delta))%Q) by (field; lra). rewrite E.
      assert (delta' / delta <= 1)%Q by (apply Qle_shift_div_r; lra). nra. }
    assert (HS : (1 / d' <= 1 / d)%Q) by (apply inv_le; lra).
    destruct (Qltb (n' / delta') (1 / d')) eqn:E'; [|destruct (Qltb (n / delta) (1 / d)); exact I]. apply Qltb_iff in E'.
    rewrite (proj2 (Qltb_iff (n / delta) (1 / d))) by lra. cbn. apply inv_le; lra.
  - rewrite (delay_idle delta n d) by (right; exact H2). apply delay_nonneg. lra.
  - rewrite (delay_idle delta n d) by (left; exact H1). apply delay_nonneg. lra.
Qed.

Lemma delay_cases delta n d : (0 < delta)%Q ->
  ((n <= 0)%Q \/ (d <= 0)%Q -> average_delay delta n d = Fin 0) /\
  ((0 < n)%Q -> (0 < d)%Q ->
    ((n / delta < 1 / d)%Q -> eeq (average_delay delta n d) (Fin (1 / (1 / d - n / delta)))) /\
    ((1 / d <= n / delta)%Q -> average_delay delta n d = Inf) /\
    ele (Fin d) (average_delay delta n d)).
Proof.
  intros H0. split; [apply delay_idle|]. intros H1 H2. split; [|split; [|apply delay_positive; assumption]]; intros H; rewrite (delay_busy _ _ _ H0 H1 H2).
  - rewrite (proj2 (Qltb_iff _ _) H). cbn. reflexivity.
  - rewrite (proj2 (Qltb_false _ _) H). reflexivity.
Qed.

(** ** Consumption *)
Section Consumption.
  Variable powf : Q -> Q -> Q.

  Lemma linear_consumption models st phi_min phi_max delta : lookup models (st_key st) = Ok (phi_min, phi_max) ->
    (forall s, exists c, consumption powf (CLinear models) delta st s = Ok c /\ (c == (1 - s) * (delta * phi_min) + s * (delta * phi_max))%Q) /\
    ((0 <= delta)%Q -> (phi_min <= phi_max)%Q -> forall s s' c c', (s <= s')%Q ->
       consumption powf (CLinear models) delta st s = Ok c -> consumption powf (CLinear models) delta st s' = Ok c' -> (c <= c')%Q).
  Proof.
    intros HL. split.
    - intros s. cbn [consumption]. rewrite HL. cbn [obind fst snd]. eexists. split; [reflexivity|]. ring.
    - intros Hd Hp s s' c c' Hs. cbn [consumption]. rewrite HL. cbn [obind fst snd]. intros H H'.
      assert (c = delta * ((phi_max - phi_min) * s + phi_min))%Q by congruence. assert (c' = delta * ((phi_max - phi_min) * s' + phi_min))%Q by congruence. subst.
      assert ((phi_max - phi_min) * s <= (phi_max - phi_min) * s')%Q by nra. nra.
  Qed.

  Lemma simplified_consumption models st phi_max delta s : lookup models (st_key st) = Ok phi_max ->
    exists c c', consumption powf (CSimplified models) delta st s = Ok c /\
      consumption powf (CLinear [(st_key st, (phi_max / 2, phi_max)%Q)]) delta st s = Ok c' /\ (c == c')%Q.
  Proof.
    intros HL. cbn [consumption]. rewrite HL. cbn [obind]. unfold lookup. cbn [find fst]. rewrite String.eqb_refl. cbn [option_map from_option obind fst snd].
    eexists. eexists. split; [reflexivity|]. split; [reflexivity|]. field.
  Qed.

  Lemma nonlinear_consumption models st phi_min alpha beta delta : lookup models (st_key st) = Ok (phi_min, alpha, beta) ->
    (0 <= delta)%Q -> (0 < beta)%Q -> (forall a b, (0 <= a)%Q -> (a <= b)%Q -> (powf a alpha <= powf b alpha)%Q) ->
    forall s s' c c', (0 <= s)%Q -> (s <= s')%Q -> consumption powf (CNonLinear models) delta st s = Ok c ->
      consumption powf (CNonLinear models) delta st s' = Ok c' -> (c <= c')%Q.
  Proof.
    intros HL Hd Hb HP s s' c c' Hs Hs'. cbn [consumption]. rewrite HL. cbn [obind fst snd]. intros H H'.
    assert (c = delta * (powf s alpha / beta + phi_min))%Q by congruence. assert (c' = delta * (powf s' alpha / beta + phi_min))%Q by congruence. subst.
    pose proof (div_le _ _ _ Hb (HP s s' Hs Hs')). nra.
  Qed.
End Consumption.

(** ** Revenue *)
Lemma qpos_cases x : (x <= 0 -> qpos x == 0)%Q /\ (0 <= x -> qpos x == x)%Q /\ (0 <= qpos x)%Q.
Proof.
  unfold qpos. destruct (Qltb x 0) eqn:E; [apply Qltb_iff in E|apply Qltb_false in E]; repeat split; intros; try lra; try reflexivity.
Qed.

Lemma revenue_linear models jt gamma minimal delay : lookup models (jt_key jt) = Ok (gamma, minimal) ->
  exists r, loss models jt delay = Ok r /\ ((delay <= minimal)%Q -> (r == 0)%Q) /\ ((minimal <= delay)%Q -> (r == gamma * (delay - minimal))%Q).
Proof.
  intros H. unfold loss. rewrite H. cbn [obind fst snd]. eexists. split; [reflexivity|]. destruct (qpos_cases (delay - minimal)) as (H1 & H2 & _).
  split; intros HD; [rewrite H1 by lra|rewrite H2 by lra]; ring.
Qed.
Lemma revenue_monotone models jt gamma minimal delay delay' r r' : lookup models (jt_key jt) = Ok (gamma, minimal) -> (0 <= gamma)%Q -> (delay <= delay')%Q ->
  loss models jt delay = Ok r -> loss models jt delay' = Ok r' -> (0 <= r)%Q /\ (r <= r')%Q.
Proof.
  intros H Hg Hd H1 H2. destruct (revenue_linear models jt gamma minimal delay H) as (q & E & A & B). destruct (revenue_linear models jt gamma minimal delay' H) as (q' & E' & A' & B').
  assert (q = r) by congruence. assert (q' = r') by congruence. subst.
  destruct (Qlt_le_dec minimal delay) as [HX|HX]; [rewrite B by lra|rewrite A by lra]; (destruct (Qlt_le_dec minimal delay') as [HY|HY]; [rewrite B' by lra|rewrite A' by lra]); split; try nra.
Qed.

(** ** Switching cost *)
Lemma normalized_round_trip delta xi c phi : ~ (c * delta * phi == 0)%Q ->
  exists r, normalized_switching_cost (from_normalized delta xi c phi) delta = Ok r /\ (r == xi)%Q.
Proof.
  intros H. unfold normalized_switching_cost, from_normalized, switching_cost_of. cbn [sw_energy_cost sw_phi_min sw_phi_max sw_epsilon sw_delta sw_tau sw_rho].
  destruct (Qeq_bool (c * delta * phi) 0) eqn:E; [apply Qeq_bool_iff in E; contradiction|]. eexists. split; [reflexivity|]. field.
  assert (~ c == 0)%Q by (intros HE; apply H; rewrite HE; ring). assert (~ delta == 0)%Q by (intros HE; apply H; rewrite HE; ring).
  assert (~ phi == 0)%Q by (intros HE; apply H; rewrite HE; ring). repeat split; assumption.
Qed.

(** ** Energy cost *)
Lemma insert_by_perm {A} (key : A -> Q) x l : Permutation (insert_by key x l) (x :: l).
Proof. induction l as [|y l IH]; cbn; [constructor; constructor|]. destruct (Qle_bool (key x) (key y)); [reflexivity|]. rewrite IH. apply perm_swap. Qed.
Lemma sort_by_perm {A} (key : A -> Q) l : Permutation (sort_by key l) l.
Proof. induction l as [|x l IH]; cbn; [constructor|]. rewrite insert_by_perm. constructor. exact IH. Qed.
Lemma insert_by_sorted {A} (key : A -> Q) x l : StronglySorted (fun a b => key a <= key b)%Q l -> StronglySorted (fun a b => key a <= key b)%Q (insert_by key x l).
Proof.
  induction 1 as [|y l HS IH HF]; cbn; [repeat constructor|]. destruct (Qle_bool (key x) (key y)) eqn:E.
  - apply Qle_bool_iff in E. constructor; [constructor; assumption|]. constructor; [exact E|]. eapply Forall_impl; [|exact HF]. intros z Hz. cbv beta in *. lra.
  - assert (key y <= key x)%Q. { destruct (Qlt_le_dec (key y) (key x)) as [|H]; [lra|]. apply Qle_bool_iff in H. congruence. }
    constructor; [exact IH|]. apply Forall_forall. intros z Hz. apply (Permutation_in z (insert_by_perm key x l)) in Hz. destruct Hz as [->|Hz]; [assumption|].
    eapply Forall_forall in HF; [exact HF|exact Hz].
Qed.
Lemma sort_by_sorted {A} (key : A -> Q) l : StronglySorted (fun a b => key a <= key b)%Q (sort_by key l).
Proof. induction l as [|x l IH]; cbn; [constructor|]. apply insert_by_sorted. exact IH. Qed.

(** The amounts drawn. *)
Fixpoint amounts (p : ext) (cum : Q) (limits : list Q) : list Q :=
  match limits with
  | [] => []
  | l :: r => drawn (missing p cum) l :: amounts p (cum + l)%Q r
  end.

Definition open_demand (p : ext) (cum : Q) : ext := missing p cum.

Lemma amounts_served limits : Forall (fun l => 0 <= l)%Q limits -> forall p cum, served_in_order (open_demand p cum) limits (amounts p cum limits).
Proof.
  induction 1 as [|l limits Hl HF IH]; intros p cum.
  - split; [reflexivity|]. split; [constructor|]. split; [intros i j li ai aj _ H; destruct i; discriminate|]. cbn. unfold open_demand, missing. destruct p; [|reflexivity].
    symmetry. apply Q.min_r. apply (proj2 (proj2 (qpos_cases _))).
  - assert (HFL : (0 <= Qsum limits)%Q). { clear -HF. induction HF; cbn; lra. }
    destruct (IH p (cum + l)%Q) as (H1 & H2 & H3 & H4). cbn [amounts]. unfold open_demand in *.
    destruct p as [p|].
    + cbn [missing drawn] in *. destruct (qpos_cases (p - cum)) as (A1 & A2 & A3). destruct (qpos_cases (p - (cum + l))) as (B1 & B2 & B3).
      assert (HM : (Qmin (qpos (p - cum)) l <= qpos (p - cum))%Q) by apply Q.le_min_l. assert (HM' : (Qmin (qpos (p - cum)) l <= l)%Q) by apply Q.le_min_r.
      assert (HM0 : (0 <= Qmin (qpos (p - cum)) l)%Q) by (apply Q.min_glb; assumption).
      assert (HMF : (l <= p - cum)%Q -> (Qmin (qpos (p - cum)) l == l)%Q) by (intros HX; apply Q.min_r; rewrite A2 by lra; lra).
      assert (HML : (p - cum <= l)%Q -> (Qmin (qpos (p - cum)) l == qpos (p - cum))%Q).
      { intros HX. apply Q.min_l. destruct (Qlt_le_dec (p - cum) 0); [rewrite A1 by lra; lra|rewrite A2 by lra; lra]. }
      cbn [eeq] in H4.
      split; [cbn; congruence|]. split; [constructor; [split; assumption|exact H2]|]. split.
      * intros i j li ai aj Hij E1 E2 E3 Hp. destruct i as [|i]; destruct j as [|j]; try lia; cbn [nth_error] in *.
        -- assert (li = l) by congruence. assert (ai = Qmin (qpos (p - cum)) l) by congruence. subst. apply HMF.
           assert (HS : (aj <= Qsum (amounts (Fin p) (cum + l) limits))%Q).
           { clear -H2 E3. revert j E3. induction H2 as [|a k as_ ks Ha HA IHH]; intros [|j] E; cbn in *; try discriminate.
             - assert (a = aj) by congruence. subst. assert (0 <= Qsum as_)%Q; [|lra]. clear -HA. induction HA as [|a k as_ ks Ha _ IH]; cbn; lra.
             - specialize (IHH _ E). lra. }
           destruct (Qlt_le_dec (p - (cum + l)) 0) as [HX|HX]; [|lra]. rewrite B1 in H4 by lra. rewrite Q.min_l in H4 by lra. lra.
        -- eapply H3; [|exact E1|exact E2|exact E3|exact Hp]. lia.
      * cbn [Qsum eeq]. rewrite H4. destruct (Qlt_le_dec (p - cum) l) as [HX|HX].
        -- rewrite HML by lra. rewrite B1 by lra. rewrite Q.min_l by lra. rewrite Q.min_l by (destruct (Qlt_le_dec (p - cum) 0); [rewrite A1 by lra|rewrite A2 by lra]; lra). lra.
        -- rewrite HMF by lra. rewrite B2, A2 by lra. destruct (Qlt_le_dec (p - (cum + l)) (Qsum limits)); [rewrite !Q.min_l by lra|rewrite !Q.min_r by lra]; lra.
    + cbn [missing drawn] in *. split; [cbn; congruence|]. split; [constructor; [lra|exact H2]|]. split.
      * intros i j li ai aj Hij E1 E2 E3 Hp. destruct i as [|i]; destruct j as [|j]; try lia; cbn [nth_error] in *.
        -- assert (li = l) by congruence. assert (ai = l) by congruence. subst. reflexivity.
        -- eapply H3; [|exact E1|exact E2|exact E3|exact Hp]. lia.
      * cbn [Qsum eeq] in *. lra.
Qed.

Lemma loop_amounts sources : forall t l p cum result, Forall (fun s => 0 <= es_limit s t l)%Q sources ->
  (quotas_loop t l p sources cum result == result + actual_cost t l sources (amounts p cum (map (fun s => es_limit s t l) sources)))%Q.
Proof.
  induction sources as [|s r IH]; intros t l p cum result HF; cbn [quotas_loop actual_cost map amounts]; [ring|]. inversion HF as [|? ? Hs HF']; subst. rewrite IH by assumption.
  assert (E : (unused (missing p cum) (es_limit s t l) == es_limit s t l - drawn (missing p cum) (es_limit s t l))%Q).
  { destruct p as [p|]; cbn [missing unused drawn]; [|ring]. set (x := qpos (p - cum)). destruct (qpos_cases (es_limit s t l - x)) as (A & B & _).
    destruct (Qlt_le_dec x (es_limit s t l)); [rewrite B, Q.min_l by lra; ring|rewrite A, Q.min_r by lra; ring]. }
  rewrite E. ring.
Qed.

Lemma served_compat p p' limits a : eeq p p' -> served_in_order p limits a -> served_in_order p' limits a.
Proof.
  intros HE (H1 & H2 & H3 & H4). repeat split; auto. destruct p as [p|], p' as [p'|]; cbn in HE; try contradiction; [|exact H4]. cbn in *. rewrite <- HE. exact H4.
Qed.

Lemma quotas_cost models t l p sources : lookup models (lo_key l) = Ok sources -> Forall (fun s => 0 <= es_limit s t l)%Q sources -> ele (Fin 0) p ->
  exists ordered a c, Permutation ordered sources /\ cheapest_first t ordered /\ served_in_order p (map (fun s => es_limit s t l) ordered) a /\
    energy_model_cost (EQuotas models) t l p = Ok (Fin c) /\ (c == actual_cost t l ordered a)%Q.
Proof.
  intros HL HF Hp. cbn [energy_model_cost]. rewrite HL. cbn [obind]. set (o := sort_by (unit_price t) sources).
  assert (HP : Permutation o sources) by apply sort_by_perm.
  assert (HFo : Forall (fun s => 0 <= es_limit s t l)%Q o).
  { apply Forall_forall. intros s Hs. eapply Forall_forall in HF; [exact HF|]. eapply Permutation_in; eassumption. }
  exists o, (amounts p 0 (map (fun s => es_limit s t l) o)). eexists. split; [exact HP|]. split; [apply (sort_by_sorted (unit_price t))|].
  split.
  - eapply served_compat; [|apply (amounts_served _)]. 2:{ apply Forall_forall. intros x Hx. apply in_map_iff in Hx as (s & <- & Hs). eapply Forall_forall in HFo; [exact HFo|exact Hs]. }
    unfold open_demand. destruct p as [p|]; cbn; [|exact I]. cbn in Hp. destruct (qpos_cases (p - 0)) as (_ & B & _). rewrite B by lra. ring.
  - split; [reflexivity|]. rewrite loop_amounts by exact HFo. ring.
Qed.

Lemma linear_cost models t l c p : lookup models (lo_key l) = Ok c ->
  energy_model_cost (ELinear models) t l p = match p with Fin x => Ok (Fin (c t * x)) | Inf => if Qltb 0 (c t) then Ok Inf else Panic end.
Proof. intros H. cbn [energy_model_cost]. rewrite H. reflexivity. Qed.


(** ** Combining outputs *)
Lemma eadd_eeq a a' b b' : eeq a a' -> eeq b b' -> eeq (eadd a b) (eadd a' b').
Proof. destruct a, a', b, b'; cbn; try tauto. intros -> ->. reflexivity. Qed.
Lemma eeq_refl a : eeq a a.
Proof. destruct a; cbn; [reflexivity|exact I]. Qed.
Lemma eeq_trans a b c : eeq a b -> eeq b c -> eeq a c.
Proof. destruct a, b, c; cbn; try tauto. intros -> ->. reflexivity. Qed.
Lemma eadd_assoc a b c : eeq (eadd a (eadd b c)) (eadd (eadd a b) c).
Proof. destruct a, b, c; cbn; try exact I. ring. Qed.

Lemma merged_sum ss : forall c,
  let r := fold_left dc_hmerge ss c in
  eeq (ds_energy r) (eadd (ds_energy c) (esum (map ds_energy ss))) /\ eeq (ds_revenue r) (eadd (ds_revenue c) (esum (map ds_revenue ss))) /\
  ds_assign r = ds_assign c ++ concat (map ds_assign ss).
Proof.
  induction ss as [|s ss IH]; intros c; cbn [fold_left map concat].
  - cbn [esum fold_right]. repeat split; [| |rewrite app_nil_r; reflexivity]; [destruct (ds_energy c)|destruct (ds_revenue c)]; cbn; try exact I; ring.
  - destruct (IH (dc_hmerge c s)) as (H1 & H2 & H3). cbv zeta. cbn [dc_hmerge ds_energy ds_revenue ds_assign] in *. repeat split.
    + eapply eeq_trans; [exact H1|]. cbn [esum fold_right]. fold (esum (map ds_energy ss)). generalize (ds_energy c) (ds_energy s) (esum (map ds_energy ss)). intros [x|] [y|] [z|]; cbn; try exact I; ring.
    + eapply eeq_trans; [exact H2|]. cbn [esum fold_right]. fold (esum (map ds_revenue ss)). generalize (ds_revenue c) (ds_revenue s) (esum (map ds_revenue ss)). intros [x|] [y|] [z|]; cbn; try exact I; ring.
    + rewrite H3, app_assoc. reflexivity.
Qed.

Lemma dc_outputs (l : list (model_output dc_success dc_failure)) : l <> [] ->
  match first_failure l with
  | Some f => reduce_outputs dc_hmerge l = Ok (MFailure f)
  | None =>
      match successes l with
      | [] => reduce_outputs dc_hmerge l = Ok MNone
      | ss => exists r, reduce_outputs dc_hmerge l = Ok (MSuccess r) /\
          eeq (ds_energy r) (esum (map ds_energy ss)) /\ eeq (ds_revenue r) (esum (map ds_revenue ss)) /\
          ds_assign r = concat (map ds_assign ss)
      end
  end.
Proof.
  intros Hl. rewrite reduce_combined. destruct l as [|o l]; [contradiction|]. cbn [is_nil]. unfold combined.
  destruct (first_failure (o :: l)); [reflexivity|]. destruct (successes (o :: l)) as [|s ss]; [reflexivity|].
  eexists. split; [reflexivity|]. destruct (merged_sum ss s) as (H1 & H2 & H3). cbv zeta in *. cbn [map concat esum fold_right]. auto.
Qed.

Lemma hmerge_assoc a b c :
  eeq (ds_energy (dc_hmerge a (dc_hmerge b c))) (ds_energy (dc_hmerge (dc_hmerge a b) c)) /\
  eeq (ds_revenue (dc_hmerge a (dc_hmerge b c))) (ds_revenue (dc_hmerge (dc_hmerge a b) c)) /\
  ds_assign (dc_hmerge a (dc_hmerge b c)) = ds_assign (dc_hmerge (dc_hmerge a b) c).
Proof. cbn [dc_hmerge ds_energy ds_revenue ds_assign]. split; [apply eadd_assoc|]. split; [apply eadd_assoc|]. apply app_assoc. Qed.

(** Samples. *)
Lemma vertical_fold (l : list (model_output dc_success dc_failure)) : forall c, single_slot c -> Forall single_slot (successes l) ->
  match first_failure l with
  | Some f => ofold_outputs dc_vmerge l (MSuccess c) = Ok (MFailure f)
  | None => exists r, ofold_outputs dc_vmerge l (MSuccess c) = Ok (MSuccess r) /\
      ds_assign r = [concat (concat (map ds_assign (c :: successes l)))] /\
      (forall lo hi, Forall (fun s => ele lo (ds_energy s) /\ ele (ds_energy s) hi) (c :: successes l) -> ele lo (ds_energy r) /\ ele (ds_energy r) hi) /\
      (forall lo hi, Forall (fun s => ele lo (ds_revenue s) /\ ele (ds_revenue s) hi) (c :: successes l) -> ele lo (ds_revenue r) /\ ele (ds_revenue r) hi)
  end.
Proof.
  assert (HE : forall lo hi a b, ele lo a -> ele a hi -> ele lo b -> ele b hi -> ele lo (escale (1 # 2) (eadd a b)) /\ ele (escale (1 # 2) (eadd a b)) hi).
  { intros [lo|] [hi|] [a|] [b|]; cbn; intros; try tauto; split; try exact I; lra. }
  induction l as [|o l IH]; intros c Hc HF.
  - cbn [first_failure ofold_outputs successes]. exists c. split; [reflexivity|]. unfold single_slot in Hc. destruct (ds_assign c) as [|u [|? ?]] eqn:E; try discriminate Hc.
    split; [cbn [map concat]; rewrite E; cbn; rewrite !app_nil_r; reflexivity|]. split; intros lo hi H; inversion H; subst; assumption.
  - destruct o as [s|f|]; cbn [first_failure successes ofold_outputs merge_output_o] in *.
    + inversion HF as [|? ? Hs HF']; subst. unfold single_slot in Hc, Hs.
      destruct (ds_assign c) as [|u [|? ?]] eqn:Ec; try discriminate Hc. destruct (ds_assign s) as [|w [|? ?]] eqn:Es; try discriminate Hs.
      set (c' := mkDCS (escale (1 # 2) (eadd (ds_energy c) (ds_energy s))) (escale (1 # 2) (eadd (ds_revenue c) (ds_revenue s))) [u ++ w]).
      assert (EM : dc_vmerge c s = Ok c') by (unfold dc_vmerge; rewrite Ec, Es; reflexivity). rewrite EM. cbn [obind]. specialize (IH c' eq_refl HF'). destruct (first_failure l); [exact IH|]. destruct IH as (r & H1 & H2 & H3 & H4).
      exists r. split; [exact H1|]. split.
      * rewrite H2. cbn [map concat]. rewrite Ec, Es. cbn [c' ds_assign concat app]. cbn. rewrite ?app_nil_r, ?app_assoc. reflexivity.
      * split; intros lo hi H; inversion H as [|? ? A H']; subst; inversion H' as [|? ? B H'']; subst; [apply H3|apply H4]; (constructor; [|exact H'']); cbn [c' ds_energy ds_revenue]; apply HE; tauto.
    + clear -l. assert (H : forall l, ofold_outputs dc_vmerge l (@MFailure dc_success dc_failure f) = Ok (MFailure f)) by (induction l0 as [|x k IH]; [reflexivity|exact IH]). cbn [obind]. apply H.
    + cbn [obind]. apply IH; assumption.
Qed.

Lemma samples_combined (l : list (model_output dc_success dc_failure)) : l <> [] -> Forall single_slot (successes l) ->
  match first_failure l with
  | Some f => vertical_reduce dc_vmerge l = Ok (MFailure f)
  | None =>
      match successes l with
      | [] => vertical_reduce dc_vmerge l = Ok MNone
      | ss => exists r, vertical_reduce dc_vmerge l = Ok (MSuccess r) /\
          ds_assign r = [concat (concat (map ds_assign ss))] /\
          (forall lo hi, Forall (fun s => ele lo (ds_energy s) /\ ele (ds_energy s) hi) ss -> ele lo (ds_energy r) /\ ele (ds_energy r) hi) /\
          (forall lo hi, Forall (fun s => ele lo (ds_revenue s) /\ ele (ds_revenue s) hi) ss -> ele lo (ds_revenue r) /\ ele (ds_revenue r) hi)
      end
  end.
Proof.
  intros Hl HF. destruct l as [|o l]; [contradiction|]. clear Hl. cbn [vertical_reduce]. revert o HF. induction l as [|o' l IH]; intros o HF.
  - destruct o as [s|f|]; cbn [first_failure successes] in *; try reflexivity. inversion HF; subst. apply (vertical_fold [] s); assumption.
  - destruct o as [s|f|].
    + cbn [first_failure successes] in *. inversion HF; subst. apply (vertical_fold (o' :: l) s); assumption.
    + cbn [first_failure]. clear. revert o'. induction l as [|x l IH]; intros o'; [reflexivity|]. cbn [ofold_outputs merge_output_o obind]. exact (IH x).
    + cbn [first_failure successes] in HF |- *. cbn [ofold_outputs merge_output_o obind]. apply (IH o'). exact HF.
Qed.
