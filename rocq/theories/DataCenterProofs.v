(** Proofs about the objective of the data-centre model. *)
From Coq Require Import Lia Lqa Setoid Qminmax.
From Verif Require Import NumLemmas DataCenterModel DataCenterSpec DataCenterParts.
From Verif Require Import ProblemModel CostModel.
Local Open Scope Z_scope.

(** ** Sums of results *)
Definition finite_result (r : outcome (result ext)) : Prop := exists q, r = Ok (ROk (Fin q)).
Definition answered {A} (r : outcome (result A)) : Prop := exists a, r = Ok a.

Lemma sum_finite {K} (f : K -> outcome (result ext)) (g : K -> Q) ks : forall a, (forall k, In k ks -> exists q, f k = Ok (ROk (Fin q)) /\ (q == g k)%Q) ->
  exists q, sum_results eadd (map f ks) (Fin a) = Ok (ROk (Fin q)) /\ (q == a + Qsum (map g ks))%Q.
Proof.
  induction ks as [|k ks IH]; intros a H; cbn [map sum_results Qsum].
  - exists a. split; [reflexivity|]. ring.
  - destruct (H k (or_introl eq_refl)) as (q & E & EQ). rewrite E. cbn [rbind obind]. change (eadd (Fin a) (Fin q)) with (Fin (a + q)).
    destruct (IH (a + q)%Q) as (q' & E' & EQ'); [intros; apply H; right; assumption|]. exists q'. split; [exact E'|]. rewrite EQ', EQ. ring.
Qed.

Lemma sum_infinite {K} (f : K -> outcome (result ext)) ks : forall a, (forall k, In k ks -> answered (f k)) ->
  (a = Inf \/ exists k, In k ks /\ ~ finite_result (f k)) ->
  answered (sum_results eadd (map f ks) a) /\ ~ finite_result (sum_results eadd (map f ks) a).
Proof.
  induction ks as [|k ks IH]; intros a HA HX; cbn [map sum_results].
  - destruct HX as [->|(k & [] & _)]. split; [eexists; reflexivity|]. intros [q H]. discriminate.
  - destruct (HA k (or_introl eq_refl)) as [[e|e] E]; rewrite E; cbn [rbind obind].
    + apply IH; [intros; apply HA; right; assumption|]. destruct HX as [->|(k' & [->|Hk] & Hn)]; [left; destruct e; reflexivity| |right; exists k'; auto].
      left. destruct e as [q|]; [exfalso; apply Hn; exists q; exact E|destruct a; reflexivity].
    + split; [eexists; reflexivity|]. intros [q H]. discriminate.
Qed.

Lemma sum_answered {K} (f : K -> outcome (result ext)) ks : forall a, (forall k, In k ks -> answered (f k)) -> answered (sum_results eadd (map f ks) a).
Proof.
  induction ks as [|k ks IH]; intros a HA; cbn [map sum_results]; [eexists; reflexivity|].
  destruct (HA k (or_introl eq_refl)) as [[e|e] E]; rewrite E; cbn [rbind obind]; [|eexists; reflexivity]. apply IH. intros; apply HA; right; assumption.
Qed.

Definition finite_pair (r : outcome (result dc_objective)) : Prop := exists e q, r = Ok (ROk (Fin e, Fin q)).

Lemma pairs_finite {K} (f : K -> outcome (result dc_objective)) (g h : K -> Q) ks : forall a b,
  (forall k, In k ks -> exists e q, f k = Ok (ROk (Fin e, Fin q)) /\ (e == g k)%Q /\ (q == h k)%Q) ->
  exists e q, sum_results obj_add (map f ks) (Fin a, Fin b) = Ok (ROk (Fin e, Fin q)) /\ (e == a + Qsum (map g ks))%Q /\ (q == b + Qsum (map h ks))%Q.
Proof.
  induction ks as [|k ks IH]; intros a b H; cbn [map sum_results Qsum].
  - exists a, b. split; [reflexivity|]. split; ring.
  - destruct (H k (or_introl eq_refl)) as (e & q & E & E1 & E2). rewrite E. cbn [rbind obind]. change (obj_add (Fin a, Fin b) (Fin e, Fin q)) with (Fin (a + e), Fin (b + q)).
    destruct (IH (a + e)%Q (b + q)%Q) as (e' & q' & E' & EQ1 & EQ2); [intros; apply H; right; assumption|]. exists e', q'. split; [exact E'|]. rewrite EQ1, EQ2, E1, E2. split; ring.
Qed.

Lemma pairs_first_finite {K} (f : K -> outcome (result dc_objective)) (g h : K -> Q) ks :
  (forall k, In k ks -> exists e q, f k = Ok (ROk (Fin e, Fin q)) /\ (e == g k)%Q /\ (q == h k)%Q) ->
  exists e q, sum_first obj_add (Fin 0, Fin 0) (map f ks) = Ok (ROk (Fin e, Fin q)) /\ (e == Qsum (map g ks))%Q /\ (q == Qsum (map h ks))%Q.
Proof.
  intros H. destruct ks as [|k ks]; cbn [map sum_first Qsum].
  - exists 0%Q, 0%Q. split; [reflexivity|]. split; ring.
  - destruct (H k (or_introl eq_refl)) as (e & q & E & E1 & E2). rewrite E. cbn [rbind obind].
    destruct (pairs_finite f g h ks e q) as (e' & q' & E' & EQ1 & EQ2); [intros; apply H; right; assumption|]. exists e', q'. split; [exact E'|]. rewrite EQ1, EQ2, E1, E2. split; ring.
Qed.

Definition infinite_pair (a : dc_objective) : Prop := fst a = Inf \/ snd a = Inf.
Lemma pairs_infinite {K} (f : K -> outcome (result dc_objective)) ks : forall a, (forall k, In k ks -> answered (f k)) ->
  (infinite_pair a \/ exists k, In k ks /\ ~ finite_pair (f k)) ->
  answered (sum_results obj_add (map f ks) a) /\ ~ finite_pair (sum_results obj_add (map f ks) a).
Proof.
  induction ks as [|k ks IH]; intros a HA HX; cbn [map sum_results].
  - destruct HX as [HX|(k & [] & _)]. split; [eexists; reflexivity|]. intros (e & q & H). assert (a = (Fin e, Fin q)) by congruence. subst. destruct HX; discriminate.
  - destruct (HA k (or_introl eq_refl)) as [[e|e] E]; rewrite E; cbn [rbind obind].
    + apply IH; [intros; apply HA; right; assumption|]. unfold infinite_pair in *. cbn [obj_add fst snd]. destruct a as [a1 a2], e as [e1 e2]; cbn [fst snd] in *.
      destruct HX as [[->| ->]|(k' & [->|Hk] & Hn)]; [left; left; destruct e1; reflexivity|left; right; destruct e2; reflexivity| |right; exists k'; auto].
      left. destruct e1 as [q1|]; [|left; destruct a1; reflexivity]. destruct e2 as [q2|]; [|right; destruct a2; reflexivity]. exfalso. apply Hn. exists q1, q2. exact E.
    + split; [eexists; reflexivity|]. intros (x & q & H). discriminate.
Qed.
Lemma pairs_first_infinite {K} (f : K -> outcome (result dc_objective)) ks : (forall k, In k ks -> answered (f k)) ->
  (exists k, In k ks /\ ~ finite_pair (f k)) ->
  answered (sum_first obj_add (Fin 0, Fin 0) (map f ks)) /\ ~ finite_pair (sum_first obj_add (Fin 0, Fin 0) (map f ks)).
Proof.
  intros HA (k & Hk & Hn). destruct ks as [|k0 ks]; [destruct Hk|]. cbn [map sum_first].
  destruct (HA k0 (or_introl eq_refl)) as [[e|e] E]; rewrite E; cbn [rbind obind].
  - apply pairs_infinite; [intros; apply HA; right; assumption|]. destruct Hk as [->|Hk]; [|right; exists k; auto]. left. destruct e as [e1 e2]. unfold infinite_pair. cbn [fst snd].
    destruct e1 as [q1|]; [|left; reflexivity]. destruct e2 as [q2|]; [|right; reflexivity]. exfalso. apply Hn. exists q1, q2. exact E.
  - split; [eexists; reflexivity|]. intros (x & q & H). discriminate.
Qed.

(** ** Work *)
Lemma parse_mod n i : (0 < n)%nat -> parse n i = Ok (Nat.div i n, Nat.modulo i n).
Proof.
  intros H. destruct n as [|n]; [lia|]. unfold parse. f_equal. f_equal. pose proof (Nat.div_mod i (S n) ltac:(lia)). lia.
Qed.

Section Objective.
  Variable powf : Q -> Q -> Q.
  Variable m : data_center.
  Variable price : location -> Z -> Q.
  Variable power : server_type -> Q -> Q.
  Variable revenue : job_type -> Q * Q.
  Hypothesis HD : described powf m price power revenue.

  Lemma work_total st loads : (0 < length (dc_job_types m))%nat \/ loads = [] -> total_sub_jobs m st loads = Ok (work m st loads).
  Proof.
    intros H. unfold total_sub_jobs, work.
    assert (E : omap (fun il => do si <- parse (length (dc_job_types m)) (fst il); do jt <- index (dc_job_types m) (snd si); Ok (jt_processing_time_on jt st * snd il)%Q)
        (combine (seq 0 (length loads)) loads) =
      Ok (map (fun il => match nth_error (dc_job_types m) (Nat.modulo (fst il) (length (dc_job_types m))) with
                         | Some jt => jt_processing_time_on jt st * snd il | None => 0 end)%Q (combine (seq 0 (length loads)) loads))).
    { destruct H as [H| ->]; [|reflexivity]. induction (combine (seq 0 (length loads)) loads) as [|il l IH]; [reflexivity|]. cbn [omap map].
      rewrite (parse_mod _ _ H). cbn [obind snd]. unfold index at 1. destruct (nth_error (dc_job_types m) (Nat.modulo (fst il) (length (dc_job_types m)))) as [jt|] eqn:E.
      - cbn [from_option obind]. rewrite IH. reflexivity.
      - apply nth_error_None in E. pose proof (Nat.mod_upper_bound (fst il) (length (dc_job_types m)) ltac:(lia)). lia. }
    rewrite E. reflexivity.
  Qed.

  Lemma work_sum_nonneg st (f : nat * Q -> Q) l : In st (dc_server_types m) -> Forall (fun il => 0 <= snd il)%Q l ->
    (0 <= Qsum (map (fun il => match nth_error (dc_job_types m) (Nat.modulo (fst il) (length (dc_job_types m))) with
                         | Some jt => jt_processing_time_on jt st * snd il | None => 0 end)%Q l))%Q /\
    ((Qsum (map snd l) == 0)%Q -> (Qsum (map (fun il => match nth_error (dc_job_types m) (Nat.modulo (fst il) (length (dc_job_types m))) with
                         | Some jt => jt_processing_time_on jt st * snd il | None => 0 end)%Q l) == 0)%Q) /\ (0 <= Qsum (map snd l))%Q.
  Proof.
    intros Hst. induction 1 as [|il l Hil HF IH]; cbn [map Qsum]; [repeat split; intros; lra|]. destruct IH as (I1 & I2 & I3).
    destruct (nth_error (dc_job_types m) _) as [jt|] eqn:E.
    - pose proof (ds_time _ _ _ _ _ HD st jt Hst (nth_error_In _ _ E)) as HT. repeat split; [nra| |lra]. intros HS. rewrite I2 by lra. assert (snd il == 0)%Q by lra. rewrite H. ring.
    - repeat split; [lra| |lra]. intros HS. rewrite I2 by lra. ring.
  Qed.
  Lemma combine_snd (loads : list Q) : forall a, map snd (combine (seq a (length loads)) loads) = loads.
  Proof. induction loads as [|x l IH]; intros a; cbn; [reflexivity|]. f_equal. apply IH. Qed.
  Lemma combine_nonneg (loads : list Q) : Forall (fun l => 0 <= l)%Q loads -> forall a, Forall (fun il : nat * Q => 0 <= snd il)%Q (combine (seq a (length loads)) loads).
  Proof. induction 1 as [|x l Hx _ IH]; intros a; cbn; constructor; auto. Qed.
  Lemma work_nonneg st loads : In st (dc_server_types m) -> Forall (fun l => 0 <= l)%Q loads ->
    (0 <= work m st loads)%Q /\ ((Qsum loads == 0)%Q -> (work m st loads == 0)%Q) /\ (0 <= Qsum loads)%Q.
  Proof.
    intros Hst HF. pose proof (work_sum_nonneg st snd _ Hst (combine_nonneg loads HF 0%nat)) as H. rewrite combine_snd in H. exact H.
  Qed.

  Context {T : Type}.
  Variable v : value T.

  (** ** One server type *)
  Definition energy_term (st : server_type) (x : Q) (loads : list Q) : outcome (result ext) :=
    safe_balancing x (work m st loads)
      (if Qeq_bool (dc_delta m) 0 then Panic else
       let s := (work m st loads / (x * dc_delta m))%Q in
       do c <- limit_utilization st s (do c <- consumption powf (dc_consumption m) (dc_delta m) st s; Ok (Fin (x * c)%Q));
       Ok (ROk c)).

  Lemma energy_ok st x loads : In st (dc_server_types m) -> Forall (fun l => 0 <= l)%Q loads -> (0 <= x)%Q ->
    answered (energy_term st x loads) /\
    (supported m st x loads -> exists q, energy_term st x loads = Ok (ROk (Fin q)) /\ (q == type_energy m power st x loads)%Q) /\
    ((0 < x)%Q -> (st_max_utilization st * (x * dc_delta m) < work m st loads)%Q -> ~ finite_result (energy_term st x loads)).
  Proof.
    intros Hst HF Hx. destruct (work_nonneg st loads Hst HF) as (W1 & W2 & W3). pose proof (ds_slot _ _ _ _ _ HD) as Hs.
    pose proof (ds_utilization _ _ _ _ _ HD st Hst) as Hu. unfold energy_term, safe_balancing, type_energy.
    destruct (Qeq_bool (dc_delta m) 0) eqn:E0; [apply Qeq_bool_iff in E0; lra|]. destruct (Qltb 0 x) eqn:EX.
    - apply Qltb_iff in EX. assert (HxD : (0 < x * dc_delta m)%Q) by nra.
      assert (EB : Qle_bool x 0 = false). { destruct (Qle_bool x 0) eqn:E; [apply Qle_bool_iff in E; lra|reflexivity]. } rewrite EB.
      cbv zeta. unfold limit_utilization. rewrite (ds_power _ _ _ _ _ HD st _ Hst). cbn [obind].
      destruct (Qle_bool (work m st loads / (x * dc_delta m)) (st_max_utilization st)) eqn:EU; cbn [obind].
      + split; [eexists; reflexivity|]. split; [intros _; eexists; split; reflexivity|]. intros _ HW. exfalso. apply Qle_bool_iff in EU.
        assert (HQ : (work m st loads == work m st loads / (x * dc_delta m) * (x * dc_delta m))%Q) by (field; lra). rewrite HQ in HW. apply Qmult_lt_r in HW; lra.
      + split; [eexists; reflexivity|]. split; [|intros _ _ [q H]; discriminate]. intros HS. exfalso. apply Bool.not_true_iff_false in EU. apply EU. apply Qle_bool_iff.
        apply Qle_shift_div_r; [exact HxD|]. destruct HS as [HS|(_ & HS & _)]; [rewrite W2 by exact HS; nra|exact HS].
    - apply Qltb_false in EX. assert (EB : Qle_bool x 0 = true) by (apply Qle_bool_iff; lra). rewrite EB.
      destruct (Qltb 0 (work m st loads)) eqn:EW.
      + split; [eexists; reflexivity|]. apply Qltb_iff in EW. split; [|intros; lra]. intros [HS|(HS & _)]; [rewrite W2 in EW by exact HS|]; lra.
      + apply Qltb_false in EW. assert (E : Qeq_bool (work m st loads) 0 = true) by (apply Qeq_bool_iff; lra). rewrite E.
        split; [eexists; reflexivity|]. split; [|intros; lra]. intros _. eexists. split; reflexivity.
  Qed.

  Definition mean_duration (st : server_type) (loads : list Q) : Q :=
    if Qeq_bool (Qsum loads) 0 then 0%Q else (work m st loads / Qsum loads)%Q.

  Lemma delay_finite st x loads : In st (dc_server_types m) -> Forall (fun l => 0 <= l)%Q loads -> (0 < x)%Q ->
    (supported m st x loads -> exists d, average_delay (dc_delta m) (Qsum loads / x) (mean_duration st loads) = Fin d /\ (d == sharing_delay m st x loads)%Q) /\
    (~ (work m st loads < x * dc_delta m)%Q -> average_delay (dc_delta m) (Qsum loads / x) (mean_duration st loads) = Inf).
  Proof.
    intros Hst HF Hx. destruct (work_nonneg st loads Hst HF) as (W1 & W2 & W3). pose proof (ds_slot _ _ _ _ _ HD) as Hs.
    unfold mean_duration. destruct (Qeq_bool (Qsum loads) 0) eqn:E.
    - apply Qeq_bool_iff in E. split.
      + intros _. exists 0%Q. split; [apply delay_idle; right; lra|]. unfold sharing_delay. assert (E1 : Qle_bool (work m st loads) 0 = true) by (apply Qle_bool_iff; rewrite W2 by exact E; lra).
        rewrite E1. reflexivity.
      + intros H. exfalso. apply H. rewrite W2 by exact E. nra.
    - assert (HN : (0 < Qsum loads)%Q). { destruct (Qlt_le_dec 0 (Qsum loads)) as [|H]; [assumption|]. assert (Qsum loads == 0)%Q by lra. apply Qeq_bool_iff in H0. congruence. }
      unfold sharing_delay. destruct (Qle_bool (work m st loads) 0) eqn:EW.
      + apply Qle_bool_iff in EW. assert (EW0 : (work m st loads == 0)%Q) by lra. split.
        * intros _. exists 0%Q. split; [|reflexivity]. apply delay_idle. right. rewrite EW0. apply Qle_shift_div_r; lra.
        * intros H. exfalso. apply H. rewrite EW0. nra.
      + assert (HW : (0 < work m st loads)%Q). { destruct (Qlt_le_dec 0 (work m st loads)) as [|H]; [assumption|]. apply Qle_bool_iff in H. congruence. }
        assert (H1 : (0 < Qsum loads / x)%Q) by (apply div_pos; assumption). assert (H2 : (0 < work m st loads / Qsum loads)%Q) by (apply div_pos; assumption).
        rewrite (delay_busy _ _ _ Hs H1 H2).
        assert (HI : (Qsum loads / x / dc_delta m < 1 / (work m st loads / Qsum loads))%Q <-> (work m st loads < x * dc_delta m)%Q).
        { assert (EA : (Qsum loads / x / dc_delta m == 1 / (x * dc_delta m / Qsum loads))%Q) by (field; repeat split; lra). rewrite EA.
          rewrite inv_lt; [|apply div_pos; [nra|lra]|exact H2].
          split; intros H.
          - assert (EQ1 : (work m st loads == work m st loads / Qsum loads * Qsum loads)%Q) by (field; lra). assert (EQ2 : (x * dc_delta m == x * dc_delta m / Qsum loads * Qsum loads)%Q) by (field; lra).
            rewrite EQ1, EQ2. apply Qmult_lt_r; assumption.
          - apply Qlt_shift_div_l; [exact HN|]. assert (EQ1 : (work m st loads / Qsum loads * Qsum loads == work m st loads)%Q) by (field; lra). lra. }
        split.
        * intros [HS|(_ & _ & HS)]; [lra|]. rewrite (proj2 (Qltb_iff _ _) (proj2 HI HS)). eexists. split; reflexivity.
        * intros H. assert (EF : Qltb (Qsum loads / x / dc_delta m) (1 / (work m st loads / Qsum loads)) = false).
          { apply Bool.not_true_iff_false. intros HT. apply Qltb_iff in HT. tauto. }
          rewrite EF. reflexivity.
  Qed.

  Lemma revenue_ok t l st xk loads : In l (dc_locations m) -> In st (dc_server_types m) -> Forall (fun l => 0 <= l)%Q loads ->
    length loads = dc_e m -> (0 <= v_toQ v xk)%Q ->
    let x := v_toQ v xk in
    let r := overall_revenue_loss m v t l st xk loads in
    answered r /\
    (supported m st x loads -> exists q, r = Ok (ROk (Fin q)) /\ (q == type_revenue m revenue t l st x loads)%Q) /\
    (~ (Qsum loads == 0)%Q -> (x <= 0)%Q \/ ~ (work m st loads < x * dc_delta m)%Q -> ~ finite_result r).
  Proof.
    intros Hl Hst HF HL Hx. cbv zeta. destruct (work_nonneg st loads Hst HF) as (W1 & W2 & W3). unfold overall_revenue_loss.
    rewrite work_total.
    2:{ destruct (dc_job_types m) eqn:EJ; [right|left; cbn; lia]. unfold dc_e in HL. rewrite EJ in HL. cbn in HL. rewrite Nat.mul_0_r in HL. destruct loads; [reflexivity|discriminate]. }
    cbn [obind]. fold (mean_duration st loads). set (x := v_toQ v xk) in *. unfold safe_balancing.
    destruct (Qltb 0 x) eqn:EX.
    - apply Qltb_iff in EX. destruct (delay_finite st x loads Hst HF EX) as [D1 D2].
      assert (EB : Qle_bool x 0 = false). { destruct (Qle_bool x 0) eqn:E; [apply Qle_bool_iff in E; lra|reflexivity]. } unfold type_revenue. rewrite EB.
      set (inner := fun s i => do so <- index (dc_sources m) s; do jt <- index (dc_job_types m) i;
                 rbind (revenue_loss m t l st so jt (Qsum loads / x) (mean_duration st loads)) (fun r =>
                   do load <- index loads (encode (length (dc_job_types m)) s i); Ok (ROk (Fin (r * load)%Q)))).
      assert (HIn : forall s i, In s (seq 0 (length (dc_sources m))) -> In i (seq 0 (length (dc_job_types m))) ->
        answered (inner s i) /\
        (supported m st x loads -> exists q, inner s i = Ok (ROk (Fin q)) /\ (q == match nth_error (dc_sources m) s, nth_error (dc_job_types m) i, nth_error loads (s * length (dc_job_types m) + i) with
          | Some so, Some jt, Some load => load * (fst (revenue jt) * qpos (sharing_delay m st x loads + so_routing_delay_to so t l + jt_processing_time_on jt st - snd (revenue jt)))
          | _, _, _ => 0 end)%Q) /\
        (~ (work m st loads < x * dc_delta m)%Q -> ~ finite_result (inner s i))).
      { intros s i Hs Hi. apply in_seq in Hs, Hi. unfold inner, index.
        destruct (nth_error (dc_sources m) s) as [so|] eqn:ES; [|apply nth_error_None in ES; lia].
        destruct (nth_error (dc_job_types m) i) as [jt|] eqn:EJ; [|apply nth_error_None in EJ; lia].
        destruct (nth_error loads (s * length (dc_job_types m) + i)) as [load|] eqn:EL.
        2:{ exfalso. apply nth_error_None in EL. rewrite HL in EL. unfold dc_e in EL. nia. }
        cbn [from_option obind]. unfold revenue_loss.
        destruct (average_delay (dc_delta m) (Qsum loads / x) (mean_duration st loads)) as [d|] eqn:EA.
        - unfold loss. rewrite (ds_loss _ _ _ _ _ HD jt (nth_error_In _ _ EJ)). cbn [obind rbind]. unfold encode. rewrite EL. cbn [from_option obind].
          split; [eexists; reflexivity|]. split; [|intros HX; specialize (D2 HX); discriminate].
          intros HS. destruct (D1 HS) as (d' & Ed & Eq). assert (d' = d) by congruence. subst d'. eexists. split; [reflexivity|].
          rewrite Eq. ring.
        - cbn [rbind obind]. split; [eexists; reflexivity|]. split; [|intros _ [q H]; discriminate]. intros HS. destruct (D1 HS) as (d' & Ed & _). discriminate. }
      split; [|split].
      + apply sum_answered. intros s Hs. apply sum_answered. intros i Hi. apply HIn; assumption.
      + intros HS. destruct (sum_finite (fun s => sum_results eadd (map (inner s) (seq 0 (length (dc_job_types m)))) (Fin 0))
          (fun s => Qsum (map (fun i => match nth_error (dc_sources m) s, nth_error (dc_job_types m) i, nth_error loads (s * length (dc_job_types m) + i) with
          | Some so, Some jt, Some load => load * (fst (revenue jt) * qpos (sharing_delay m st x loads + so_routing_delay_to so t l + jt_processing_time_on jt st - snd (revenue jt)))
          | _, _, _ => 0 end)%Q (seq 0 (length (dc_job_types m))))) (seq 0 (length (dc_sources m))) 0%Q) as (q & E & EQ).
        { intros s Hs. destruct (sum_finite (inner s) (fun i => match nth_error (dc_sources m) s, nth_error (dc_job_types m) i, nth_error loads (s * length (dc_job_types m) + i) with
          | Some so, Some jt, Some load => load * (fst (revenue jt) * qpos (sharing_delay m st x loads + so_routing_delay_to so t l + jt_processing_time_on jt st - snd (revenue jt)))
          | _, _, _ => 0 end)%Q (seq 0 (length (dc_job_types m))) 0%Q) as (q & E & EQ).
          { intros i Hi. destruct (HIn s i Hs Hi) as (_ & H & _). destruct (H HS) as (q & E & EQ). exists q. split; [exact E|exact EQ]. }
          exists q. split; [exact E|]. rewrite EQ. ring. }
        exists q. split; [exact E|]. rewrite EQ. ring.
      + intros HN HX. destruct HX as [HX|HX]; [lra|].
        assert (HE : (0 < length (dc_sources m))%nat /\ (0 < length (dc_job_types m))%nat).
        { unfold dc_e in HL. destruct loads as [|q0 loads']; [exfalso; apply HN; reflexivity|]. cbn in HL. nia. }
        destruct HE as [HE1 HE2].
        apply (sum_infinite (fun s => sum_results eadd (map (inner s) (seq 0 (length (dc_job_types m)))) (Fin 0)) (seq 0 (length (dc_sources m))) (Fin 0)).
        * intros s Hs. apply sum_answered. intros i Hi. apply HIn; assumption.
        * right. exists 0%nat. assert (H0 : In 0%nat (seq 0 (length (dc_sources m)))) by (apply in_seq; lia). split; [exact H0|].
          apply sum_infinite; [intros i Hi; apply HIn; assumption|]. right. exists 0%nat. assert (H1 : In 0%nat (seq 0 (length (dc_job_types m)))) by (apply in_seq; lia).
          split; [exact H1|]. apply HIn; assumption.
    - apply Qltb_false in EX. assert (EB : Qle_bool x 0 = true) by (apply Qle_bool_iff; lra). unfold type_revenue. rewrite EB.
      destruct (Qltb 0 (Qsum loads)) eqn:EN.
      + apply Qltb_iff in EN. split; [eexists; reflexivity|]. split; [|intros _ _ [q H]; discriminate]. intros [HS|(HS & _)]; lra.
      + apply Qltb_false in EN. assert (E : Qeq_bool (Qsum loads) 0 = true) by (apply Qeq_bool_iff; lra). rewrite E. split; [eexists; reflexivity|].
        split; [intros _; eexists; split; reflexivity|]. intros H. exfalso. apply H. lra.
  Qed.

  (** ** The objective *)
  Variable t : Z.
  Variable x : list T.
  Variable lambda : list Q.
  Variable zs : fractions.
  Variable loads : nat -> list Q.
  Variable units : nat -> T.
  Hypothesis Hx : forall k, (k < dc_d m)%nat -> nth_error x k = Some (units k) /\ (0 <= v_toQ v (units k))%Q.
  Hypothesis Hloads : forall k, (k < dc_d m)%nat ->
    select_loads zs lambda k = Ok (loads k) /\ length (loads k) = dc_e m /\ Forall (fun l => 0 <= l)%Q (loads k).

  Definition at_ (j k : nat) : nat := (j * length (dc_server_types m) + k)%nat.

  Lemma at_lt j k : (j < length (dc_locations m))%nat -> (k < length (dc_server_types m))%nat -> (at_ j k < dc_d m)%nat.
  Proof. intros H1 H2. unfold at_, dc_d. nia. Qed.

  Lemma loads_case j k : (at_ j k < dc_d m)%nat -> (0 < length (dc_job_types m))%nat \/ loads (at_ j k) = [].
  Proof.
    intros H. destruct (Hloads _ H) as (_ & HL & _). unfold dc_e in HL. destruct (dc_job_types m); [right|left; cbn; lia]. cbn in HL. rewrite Nat.mul_0_r in HL.
    destruct (loads (at_ j k)); [reflexivity|discriminate].
  Qed.

  Definition energy_at (j k : nat) : outcome (result ext) :=
    let k_ := encode (length (dc_server_types m)) j k in
    do st <- index (dc_server_types m) k;
    do ls <- select_loads zs lambda k_;
    do total_load <- total_sub_jobs m st ls;
    do xk <- index x k_;
    let xq := v_toQ v xk in
    safe_balancing xq total_load
      (if Qeq_bool (dc_delta m) 0 then Panic else
       let s := (total_load / (xq * dc_delta m))%Q in
       do c <- limit_utilization st s (do c <- consumption powf (dc_consumption m) (dc_delta m) st s; Ok (Fin (xq * c)%Q));
       Ok (ROk c)).

  Lemma energy_at_term j k st : (j < length (dc_locations m))%nat -> nth_error (dc_server_types m) k = Some st ->
    energy_at j k = energy_term st (v_toQ v (units (at_ j k))) (loads (at_ j k)).
  Proof.
    intros Hj Hk. assert (HK : (k < length (dc_server_types m))%nat) by (apply nth_error_Some; congruence). pose proof (at_lt j k Hj HK) as HA.
    unfold energy_at. change (encode (length (dc_server_types m)) j k) with (at_ j k). unfold index. rewrite Hk. cbn [from_option obind].
    destruct (Hloads _ HA) as (-> & _ & _). cbn [obind]. rewrite (work_total st _ (loads_case _ _ HA)). cbn [obind]. destruct (Hx _ HA) as (-> & _). reflexivity.
  Qed.

  Definition revenue_at (j k : nat) : outcome (result ext) :=
    let k_ := encode (length (dc_server_types m)) j k in
    do ls <- select_loads zs lambda k_;
    do l <- index (dc_locations m) j;
    do st <- index (dc_server_types m) k;
    do xk <- index x k_;
    overall_revenue_loss m v t l st xk ls.
  Lemma revenue_at_term j k l st : nth_error (dc_locations m) j = Some l -> nth_error (dc_server_types m) k = Some st ->
    revenue_at j k = overall_revenue_loss m v t l st (units (at_ j k)) (loads (at_ j k)).
  Proof.
    intros Hj Hk. assert (HJ : (j < length (dc_locations m))%nat) by (apply nth_error_Some; congruence).
    assert (HK : (k < length (dc_server_types m))%nat) by (apply nth_error_Some; congruence). pose proof (at_lt j k HJ HK) as HA.
    unfold revenue_at. change (encode (length (dc_server_types m)) j k) with (at_ j k). destruct (Hloads _ HA) as (-> & _ & _). cbn [obind].
    unfold index. rewrite Hj, Hk. cbn [from_option obind]. destruct (Hx _ HA) as (-> & _). reflexivity.
  Qed.

  Definition all_supported : Prop := forall j k st, (j < length (dc_locations m))%nat -> nth_error (dc_server_types m) k = Some st ->
    supported m st (v_toQ v (units (at_ j k))) (loads (at_ j k)).

  Definition location_term (j : nat) : outcome (result dc_objective) :=
    rbind (energy_cost powf m v t j x lambda zs) (fun e =>
      rbind (sum_results eadd (map (revenue_at j) (seq 0 (length (dc_server_types m)))) (Fin 0)) (fun r => Ok (ROk (e, r)))).

  Lemma objective_terms : dc_objective_of powf m v t x lambda zs = sum_first obj_add (Fin 0, Fin 0) (map location_term (seq 0 (length (dc_locations m)))).
  Proof. reflexivity. Qed.

  Lemma nth_types k : In k (seq 0 (length (dc_server_types m))) -> exists st, nth_error (dc_server_types m) k = Some st /\ In st (dc_server_types m).
  Proof.
    intros H. apply in_seq in H. destruct (nth_error (dc_server_types m) k) as [st|] eqn:E; [|apply nth_error_None in E; lia]. exists st. split; [reflexivity|]. eapply nth_error_In; exact E.
  Qed.

  Definition energy_sum (j : nat) : Q := over_types m (fun j k l st => type_energy m power st (v_toQ v (units (at_ j k))) (loads (at_ j k))) j.
  Definition revenue_sum (j : nat) : Q := over_types m (fun j k l st => type_revenue m revenue t l st (v_toQ v (units (at_ j k))) (loads (at_ j k))) j.

  Lemma location_finite j l : nth_error (dc_locations m) j = Some l ->
    (forall k st, nth_error (dc_server_types m) k = Some st -> supported m st (v_toQ v (units (at_ j k))) (loads (at_ j k))) ->
    exists e q, location_term j = Ok (ROk (Fin e, Fin q)) /\ (e == price l t * energy_sum j)%Q /\ (q == revenue_sum j)%Q.
  Proof.
    intros Hj HS. assert (HJ : (j < length (dc_locations m))%nat) by (apply nth_error_Some; congruence). pose proof (nth_error_In _ _ Hj) as Hl.
    unfold location_term, energy_cost, energy_consumption. fold (energy_at j).
    destruct (sum_finite (energy_at j) (fun k => match nth_error (dc_locations m) j, nth_error (dc_server_types m) k with
        | Some l, Some st => type_energy m power st (v_toQ v (units (at_ j k))) (loads (at_ j k)) | _, _ => 0%Q end) (seq 0 (length (dc_server_types m))) 0%Q) as (e & E & EQ).
    { intros k Hk. destruct (nth_types k Hk) as (st & Hk' & Hst). rewrite (energy_at_term j k st HJ Hk'), Hj, Hk'. apply in_seq in Hk. pose proof (at_lt j k HJ ltac:(lia)) as HA.
      destruct (Hx _ HA) as (_ & Hxx). destruct (Hloads _ HA) as (_ & _ & HF). apply (energy_ok st _ _ Hst HF Hxx). apply HS. exact Hk'. }
    change (map (fun k => _) (seq 0 (length (dc_server_types m)))) with (map (energy_at j) (seq 0 (length (dc_server_types m)))). rewrite E. cbn [rbind obind].
    unfold index at 1. rewrite Hj. cbn [from_option obind]. destruct (ds_price _ _ _ _ _ HD) as (models & EC & HP). rewrite EC. cbn [energy_model_cost]. rewrite (HP l Hl). cbn [obind emul].
    destruct (sum_finite (revenue_at j) (fun k => match nth_error (dc_locations m) j, nth_error (dc_server_types m) k with
        | Some l, Some st => type_revenue m revenue t l st (v_toQ v (units (at_ j k))) (loads (at_ j k)) | _, _ => 0%Q end) (seq 0 (length (dc_server_types m))) 0%Q) as (q & E' & EQ').
    { intros k Hk. destruct (nth_types k Hk) as (st & Hk' & Hst). rewrite (revenue_at_term j k l st Hj Hk'), Hj, Hk'. apply in_seq in Hk. pose proof (at_lt j k HJ ltac:(lia)) as HA.
      destruct (Hx _ HA) as (_ & Hxx). destruct (Hloads _ HA) as (_ & HLL & HF). apply (revenue_ok t l st _ _ Hl Hst HF HLL Hxx). apply HS. exact Hk'. }
    rewrite E'. cbn [rbind obind]. eexists. eexists. split; [reflexivity|]. split; [rewrite EQ; unfold energy_sum, over_types; ring|]. rewrite EQ'. unfold revenue_sum, over_types. ring.
  Qed.

  Lemma location_answered j l : nth_error (dc_locations m) j = Some l -> answered (location_term j).
  Proof.
    intros Hj. assert (HJ : (j < length (dc_locations m))%nat) by (apply nth_error_Some; congruence). pose proof (nth_error_In _ _ Hj) as Hl.
    assert (HE : answered (sum_results eadd (map (energy_at j) (seq 0 (length (dc_server_types m)))) (Fin 0))).
    { apply sum_answered. intros k Hk. destruct (nth_types k Hk) as (st & Hk' & Hst). rewrite (energy_at_term j k st HJ Hk'). apply in_seq in Hk. pose proof (at_lt j k HJ ltac:(lia)) as HA.
      destruct (Hx _ HA) as (_ & Hxx). destruct (Hloads _ HA) as (_ & _ & HF). apply (energy_ok st _ _ Hst HF Hxx). }
    assert (HR : answered (sum_results eadd (map (revenue_at j) (seq 0 (length (dc_server_types m)))) (Fin 0))).
    { apply sum_answered. intros k Hk. destruct (nth_types k Hk) as (st & Hk' & Hst). rewrite (revenue_at_term j k l st Hj Hk'). apply in_seq in Hk. pose proof (at_lt j k HJ ltac:(lia)) as HA.
      destruct (Hx _ HA) as (_ & Hxx). destruct (Hloads _ HA) as (_ & HLL & HF). apply (revenue_ok t l st _ _ Hl Hst HF HLL Hxx). }
    unfold location_term, energy_cost, energy_consumption.
    change (map (fun k => _) (seq 0 (length (dc_server_types m)))) with (map (energy_at j) (seq 0 (length (dc_server_types m)))).
    destruct HE as [[e|f] E]; rewrite E; cbn [rbind obind]; [|eexists; reflexivity].
    unfold index at 1. rewrite Hj. cbn [from_option obind]. destruct (ds_price _ _ _ _ _ HD) as (models & EC & HP). rewrite EC. cbn [energy_model_cost]. rewrite (HP l Hl). cbn [obind].
    pose proof (ds_price_positive _ _ _ _ _ HD l t Hl) as HPP. assert (EM : exists c, emul (price l t) e = Ok c).
    { destruct e; cbn [emul]; [eexists; reflexivity|]. rewrite (proj2 (Qltb_iff _ _) HPP). eexists; reflexivity. }
    destruct EM as [c EM]. rewrite EM. cbn [obind]. destruct HR as [[r|f] E']; rewrite E'; cbn [rbind obind]; eexists; reflexivity.
  Qed.

  Lemma location_infinite j l k st : nth_error (dc_locations m) j = Some l -> nth_error (dc_server_types m) k = Some st ->
    ~ supported m st (v_toQ v (units (at_ j k))) (loads (at_ j k)) -> ~ finite_pair (location_term j).
  Proof.
    intros Hj Hk' HN. assert (HJ : (j < length (dc_locations m))%nat) by (apply nth_error_Some; congruence). pose proof (nth_error_In _ _ Hj) as Hl. pose proof (nth_error_In _ _ Hk') as Hst.
    assert (HK : (k < length (dc_server_types m))%nat) by (apply nth_error_Some; congruence). pose proof (at_lt j k HJ HK) as HA.
    destruct (Hx _ HA) as (_ & Hxx). destruct (Hloads _ HA) as (_ & HLL & HF).
    assert (HEA : forall k, In k (seq 0 (length (dc_server_types m))) -> answered (energy_at j k)).
    { intros k0 Hk0. destruct (nth_types k0 Hk0) as (st0 & Hk0' & Hst0). rewrite (energy_at_term j k0 st0 HJ Hk0'). apply in_seq in Hk0. pose proof (at_lt j k0 HJ ltac:(lia)) as HA0.
      destruct (Hx _ HA0) as (_ & Hxx0). destruct (Hloads _ HA0) as (_ & _ & HF0). apply (energy_ok st0 _ _ Hst0 HF0 Hxx0). }
    assert (HRA : forall k, In k (seq 0 (length (dc_server_types m))) -> answered (revenue_at j k)).
    { intros k0 Hk0. destruct (nth_types k0 Hk0) as (st0 & Hk0' & Hst0). rewrite (revenue_at_term j k0 l st0 Hj Hk0'). apply in_seq in Hk0. pose proof (at_lt j k0 HJ ltac:(lia)) as HA0.
      destruct (Hx _ HA0) as (_ & Hxx0). destruct (Hloads _ HA0) as (_ & HLL0 & HF0). apply (revenue_ok t l st0 _ _ Hl Hst0 HF0 HLL0 Hxx0). }
    assert (HIk : In k (seq 0 (length (dc_server_types m)))) by (apply in_seq; lia).
    unfold location_term, energy_cost, energy_consumption.
    change (map (fun k => _) (seq 0 (length (dc_server_types m)))) with (map (energy_at j) (seq 0 (length (dc_server_types m)))).
    set (X := v_toQ v (units (at_ j k))) in *.
    assert (HC : (~ finite_result (energy_at j k)) \/ ~ finite_result (revenue_at j k)).
    { rewrite (energy_at_term j k st HJ Hk'), (revenue_at_term j k l st Hj Hk'). unfold supported in HN.
      destruct (work_nonneg st (loads (at_ j k)) Hst HF) as (W1 & W2 & W3).
      destruct (Qlt_le_dec 0 X) as [H0|H0].
      - destruct (Qlt_le_dec (st_max_utilization st * (X * dc_delta m)) (work m st (loads (at_ j k)))) as [H1|H1].
        + left. apply (energy_ok st X _ Hst HF Hxx); assumption.
        + right. apply (revenue_ok t l st _ _ Hl Hst HF HLL Hxx); [tauto|]. right. fold X. intros H2. apply HN. right. auto.
      - right. apply (revenue_ok t l st _ _ Hl Hst HF HLL Hxx); [tauto|]. left. exact H0. }
    intros (e & q & HFP). revert HFP.
    destruct (sum_answered (energy_at j) _ (Fin 0) HEA) as [[e0|f] E]; rewrite E; cbn [rbind obind]; [|discriminate].
    unfold index at 1. rewrite Hj. cbn [from_option obind]. destruct (ds_price _ _ _ _ _ HD) as (models & EC & HP). rewrite EC. cbn [energy_model_cost]. rewrite (HP l Hl). cbn [obind].
    pose proof (ds_price_positive _ _ _ _ _ HD l t Hl) as HPP.
    destruct HC as [HC|HC].
    - assert (e0 = Inf). { destruct e0 as [q0|]; [|reflexivity]. exfalso. apply (proj2 (sum_infinite (energy_at j) _ (Fin 0) HEA (or_intror (ex_intro _ k (conj HIk HC))))). exists q0. exact E. }
      subst e0. cbn [emul]. rewrite (proj2 (Qltb_iff _ _) HPP). cbn [obind].
      destruct (sum_answered (revenue_at j) _ (Fin 0) HRA) as [[r0|f] E']; rewrite E'; cbn [rbind obind]; discriminate.
    - destruct (emul (price l t) e0) as [c| |]; cbn [obind]; try discriminate.
      destruct (sum_answered (revenue_at j) _ (Fin 0) HRA) as [[r0|f] E']; rewrite E'; cbn [rbind obind]; [|discriminate].
      intros HFP. assert (r0 = Fin q) by congruence. subst. apply (proj2 (sum_infinite (revenue_at j) _ (Fin 0) HRA (or_intror (ex_intro _ k (conj HIk HC))))). exists q. exact E'.
  Qed.
End Objective.
