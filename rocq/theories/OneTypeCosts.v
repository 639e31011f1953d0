(** The costs of a data centre with servers of one type. *)
From Coq Require Import Lia Lqa Setoid.
From Verif Require Import NumLemmas DataCenterParts DataCenterProofs DataCenterInstances OneTypeSpec OneTypeConvex.
From Verif Require Import ProblemModel CostModel.
Local Open Scope Z_scope.

(** ** Loads up to equality of rationals *)
Definition same_loads : list Q -> list Q -> Prop := Forall2 Qeq.

Lemma same_sum a b : same_loads a b -> (Qsum a == Qsum b)%Q.
Proof. induction 1 as [|x y a b E _ IH]; cbn [Qsum]; [reflexivity|]. rewrite E, IH. reflexivity. Qed.

Lemma same_work m st a b : same_loads a b -> (work m st a == work m st b)%Q.
Proof.
  unfold work. generalize 0%nat. intros n H. revert n. induction H as [|x y a b E _ IH]; intros n; cbn [length seq combine map Qsum]; [reflexivity|].
  rewrite (IH (S n)). cbn [fst snd]. destruct (nth_error _ _); [rewrite E|]; reflexivity.
Qed.

Lemma same_nth a b i : same_loads a b ->
  match nth_error a i, nth_error b i with Some x, Some y => (x == y)%Q | None, None => True | _, _ => False end.
Proof. intros H. revert i. induction H as [|x y a b E _ IH]; intros [|i]; cbn [nth_error]; auto. apply IH. Qed.

Lemma same_supported m st x y a b : (x == y)%Q -> same_loads a b -> supported m st x a -> supported m st y b.
Proof.
  intros E H. unfold supported. rewrite (same_sum _ _ H), (same_work m st _ _ H), E. exact (fun H => H).
Qed.

Lemma qpos_eq x y : (x == y)%Q -> (qpos x == qpos y)%Q.
Proof.
  intros E. destruct (qpos_cases x) as (A & B & _), (qpos_cases y) as (A' & B' & _).
  destruct (Qlt_le_dec x 0); [rewrite A, A' by lra; reflexivity|rewrite B, B' by lra; exact E].
Qed.

Lemma Qle_bool_eq x y z : (x == y)%Q -> Qle_bool x z = Qle_bool y z.
Proof. intros E. apply eq_true_iff_eq. rewrite !Qle_bool_iff, E. reflexivity. Qed.

Lemma Qsum_map_eq {K} (f g : K -> Q) ks : (forall k, In k ks -> f k == g k)%Q -> (Qsum (map f ks) == Qsum (map g ks))%Q.
Proof.
  induction ks as [|k ks IH]; intros H; cbn [map Qsum]; [reflexivity|].
  rewrite (H k) by (left; reflexivity). rewrite IH; [reflexivity|]. intros; apply H; right; assumption.
Qed.

Lemma same_delay m st x y a b : (x == y)%Q -> same_loads a b -> (sharing_delay m st x a == sharing_delay m st y b)%Q.
Proof.
  intros E H. unfold sharing_delay. rewrite (Qle_bool_eq _ _ 0 (same_work m st _ _ H)).
  destruct (Qle_bool _ 0); [reflexivity|]. rewrite (same_work m st _ _ H), (same_sum _ _ H), E. reflexivity.
Qed.

Lemma same_revenue m revenue t l st x y a b : (x == y)%Q -> same_loads a b ->
  (type_revenue m revenue t l st x a == type_revenue m revenue t l st y b)%Q.
Proof.
  intros E H. unfold type_revenue. rewrite (Qle_bool_eq _ _ 0 E). destruct (Qle_bool y 0); [reflexivity|].
  apply Qsum_map_eq. intros s _. apply Qsum_map_eq. intros i _.
  destruct (nth_error (dc_sources m) s) as [so|]; [|reflexivity]. destruct (nth_error (dc_job_types m) i) as [jt|]; [|reflexivity].
  pose proof (same_nth a b (s * length (dc_job_types m) + i) H) as HN.
  destruct (nth_error a _) as [u|], (nth_error b _) as [w|]; try contradiction; [|reflexivity].
  rewrite HN. rewrite (qpos_eq _ (sharing_delay m st y b + so_routing_delay_to so t l + jt_processing_time_on jt st - snd (revenue jt))%Q); [reflexivity|].
  rewrite (same_delay m st x y a b E H). reflexivity.
Qed.

Lemma Qsum_zero_all loads : Forall (fun q => 0 <= q)%Q loads -> (Qsum loads == 0)%Q -> Forall (fun q => q == 0)%Q loads.
Proof.
  induction 1 as [|q r Hq Hr IH]; cbn [Qsum]; intros E; constructor; assert (0 <= Qsum r)%Q by (clear - Hr; induction Hr; cbn [Qsum]; lra).
  - lra.
  - apply IH. lra.
Qed.

Lemma work_zero m st loads : Forall (fun q => q == 0)%Q loads -> (work m st loads == 0)%Q.
Proof.
  unfold work. generalize 0%nat. intros n H. revert n. induction H as [|x a E _ IH]; intros n; cbn [length seq combine map Qsum]; [reflexivity|].
  rewrite (IH (S n)). cbn [fst snd]. destruct (nth_error _ _); [rewrite E|]; ring.
Qed.

(** ** The part of the loads that counts *)
Lemma counted_single q : same_loads (counted [q]) [q].
Proof.
  constructor; [|constructor]. cbn [Qsum]. destruct (Qeq_dec q 0) as [E|E].
  - rewrite E. reflexivity.
  - field. lra.
Qed.

Lemma single_supported m st x q : supported m st x (counted [q]) <-> supported m st x [q].
Proof.
  split; apply same_supported; try reflexivity; [apply counted_single|].
  pose proof (counted_single q) as H. inversion H; subst. constructor; [symmetry; assumption|constructor].
Qed.

Lemma counted_length lambda : length (counted lambda) = length lambda.
Proof. apply map_length. Qed.

Lemma Qsum_nonneg_all l : Forall (fun q => 0 <= q)%Q l -> (0 <= Qsum l)%Q.
Proof. induction 1; cbn [Qsum]; lra. Qed.

Lemma share_nonneg q s : (0 <= q)%Q -> (0 <= s)%Q -> (0 <= q * (q / s))%Q.
Proof.
  intros Hq Hs. apply Qmult_le_0_compat; [exact Hq|]. unfold Qdiv. apply Qmult_le_0_compat; [exact Hq|].
  apply Qinv_le_0_compat. exact Hs.
Qed.

Lemma counted_nonneg lambda : Forall (fun q => 0 <= q)%Q lambda -> Forall (fun q => 0 <= q)%Q (counted lambda).
Proof.
  intros H. pose proof (Qsum_nonneg_all _ H) as HS. unfold counted. rewrite Forall_map. rewrite Forall_forall in *.
  intros q Hq. apply share_nonneg; [apply H; exact Hq|exact HS].
Qed.

Lemma select_single lambda : Forall (fun q => 0 <= q)%Q lambda ->
  exists loads, select_loads (new_fractions [] 1 (length lambda)) lambda 0 = Ok loads /\ same_loads loads (counted lambda).
Proof.
  intros HF. unfold select_loads. cbn [new_fractions f_e]. unfold get_fraction. cbn [new_fractions f_d Nat.compare seq omap obind map f_zs].
  set (T := load_total lambda). assert (HT : T = Qsum lambda) by reflexivity. unfold counted. rewrite <- HT.
  assert (HT0 : (0 <= T)%Q) by (rewrite HT; apply Qsum_nonneg_all; exact HF).
  assert (G : forall pre suf, lambda = pre ++ suf -> exists loads,
    omap (fun i => do li <- from_option (nth_error lambda i);
                   do g <- (if Qltb 0 T then do li' <- from_option (nth_error lambda i); Ok (li' / T - Qsum [])%Q else Ok 0%Q); Ok (li * g)%Q)
         (seq (length pre) (length suf)) = Ok loads /\ same_loads loads (map (fun q => q * (q / T))%Q suf)).
  { intros pre suf. revert pre. induction suf as [|q suf IH]; intros pre E.
    - exists []. split; [reflexivity|constructor].
    - cbn [length seq omap map]. assert (HN : nth_error lambda (length pre) = Some q).
      { rewrite E, nth_error_app2 by lia. rewrite Nat.sub_diag. reflexivity. }
      destruct (IH (pre ++ [q])) as (r & Hr & Sr); [rewrite E, <- app_assoc; reflexivity|].
      rewrite app_length in Hr. cbn [length] in Hr. rewrite Nat.add_1_r in Hr. rewrite Hr. rewrite HN. cbn [from_option obind].
      destruct (Qltb 0 T) eqn:ET; cbn [obind]; eexists; (split; [reflexivity|]); constructor; try exact Sr.
      + cbn [Qsum]. unfold Qdiv. ring.
      + apply Qltb_false in ET. assert (EZ : (T == 0)%Q) by lra. rewrite EZ. unfold Qdiv. change (/ 0)%Q with 0%Q. ring. }
  destruct (G [] lambda eq_refl) as (loads & HL & HS). exists loads. split; [exact HL|exact HS].
Qed.

Section OneType.
  Variables (powf : Q -> Q -> Q) (m : data_center) (price : location -> Z -> Q) (power : server_type -> Q -> Q)
    (revenue : job_type -> Q * Q) (l : location) (st : server_type).
  Hypothesis HO : one_type powf m price power revenue l st.

  Let HD := ot_described _ _ _ _ _ _ _ HO.
  Lemma type_in : In st (dc_server_types m).
  Proof. rewrite (ot_type _ _ _ _ _ _ _ HO). left. reflexivity. Qed.
  Lemma location_in : In l (dc_locations m).
  Proof. rewrite (ot_location _ _ _ _ _ _ _ HO). left. reflexivity. Qed.
  Lemma delta_pos : (0 < dc_delta m)%Q.
  Proof. exact (ds_slot _ _ _ _ _ HD). Qed.
  Lemma price_pos t : (0 < price l t)%Q.
  Proof. exact (ds_price_positive _ _ _ _ _ HD l t location_in). Qed.
  Lemma one_d : dc_d m = 1%nat.
  Proof. unfold dc_d. rewrite (ot_location _ _ _ _ _ _ _ HO), (ot_type _ _ _ _ _ _ _ HO). reflexivity. Qed.

  Lemma work_ok loads : Forall (fun q => 0 <= q)%Q loads -> (0 <= work m st loads)%Q.
  Proof.
    unfold work. generalize 0%nat. intros n H. revert n. induction H as [|x a Hx _ IH]; intros n; cbn [length seq combine map Qsum]; [lra|].
    specialize (IH (S n)). cbn [fst snd]. destruct (nth_error (dc_job_types m) _) as [jt|] eqn:E; [|lra].
    assert (0 <= jt_processing_time_on jt st * x)%Q; [|lra]. apply Qmult_le_0_compat; [|exact Hx].
    apply (ds_time _ _ _ _ _ HD); [exact type_in|]. eapply nth_error_In. exact E.
  Qed.

  Lemma same_energy x y a b : (0 <= x)%Q -> (x == y)%Q -> Forall (fun q => 0 <= q)%Q a -> same_loads a b ->
    (type_energy m power st x a == type_energy m power st y b)%Q.
  Proof.
    intros Hx E HF H. unfold type_energy. rewrite (Qle_bool_eq _ _ 0 E). destruct (Qle_bool y 0) eqn:EY; [reflexivity|].
    assert (Hy : (0 < y)%Q). { apply Qnot_le_lt. intros HY. apply Qle_bool_iff in HY. congruence. }
    rewrite (power_eq (power st) (ot_convex _ _ _ _ _ _ _ HO) (work m st a / (x * dc_delta m))%Q (work m st b / (y * dc_delta m))%Q).
    - rewrite E. reflexivity.
    - apply div_nonneg; [apply work_ok; exact HF|]. apply Qmult_lt_0_compat; [lra|exact delta_pos].
    - rewrite (same_work m st a b H), E. reflexivity.
  Qed.

  Lemma same_cost t x y a b : (0 <= x)%Q -> (x == y)%Q -> Forall (fun q => 0 <= q)%Q a -> same_loads a b ->
    (active_cost m price power revenue l st t a x == active_cost m price power revenue l st t b y)%Q.
  Proof. intros Hx E HF H. unfold active_cost. rewrite (same_energy x y a b Hx E HF H), (same_revenue m revenue t l st x y a b E H). reflexivity. Qed.

  (** *** More servers support the load as well *)
  Lemma supported_mono loads x y : (x <= y)%Q -> supported m st x loads -> supported m st y loads.
  Proof.
    intros H [Z|(Hx & Hu & Hs)]; [left; exact Z|right].
    assert (Hxy : (x * dc_delta m <= y * dc_delta m)%Q) by (apply Qmult_le_compat_r; [exact H|apply Qlt_le_weak, delta_pos]).
    split; [lra|]. split; [|lra].
    assert (st_max_utilization st * (x * dc_delta m) <= st_max_utilization st * (y * dc_delta m))%Q; [|lra].
    apply Qmult_le_compat_l; [exact Hxy|]. apply (ds_utilization _ _ _ _ _ HD). exact type_in.
  Qed.

  Lemma supported_dec loads x : {supported m st x loads} + {~ supported m st x loads}.
  Proof.
    unfold supported. destruct (Qeq_dec (Qsum loads) 0) as [E|E]; [left; left; exact E|].
    destruct (Qlt_le_dec 0 x) as [Hx|Hx]; [|right; intros [H|(H & _)]; [contradiction|lra]].
    destruct (Qlt_le_dec (st_max_utilization st * (x * dc_delta m)) (work m st loads)) as [Hu|Hu]; [right; intros [H|(_ & H & _)]; [contradiction|lra]|].
    destruct (Qlt_le_dec (work m st loads) (x * dc_delta m)) as [Hs|Hs]; [left; right; auto|right; intros [H|(_ & _ & H)]; [contradiction|lra]].
  Qed.

  (** *** Costs are not negative *)
  Lemma energy_nonneg loads x : Forall (fun q => 0 <= q)%Q loads -> (0 <= type_energy m power st x loads)%Q.
  Proof.
    intros HF. unfold type_energy. destruct (Qle_bool x 0) eqn:E; [lra|].
    assert (Hx : (0 < x)%Q). { apply Qnot_le_lt. intros H. apply Qle_bool_iff in H. congruence. }
    apply Qmult_le_0_compat; [lra|]. apply (ot_power _ _ _ _ _ _ _ HO). apply div_nonneg; [apply work_ok; exact HF|].
    apply Qmult_lt_0_compat; [exact Hx|exact delta_pos].
  Qed.

  Lemma revenue_term_nonneg loads i jt k y : Forall (fun q => 0 <= q)%Q loads -> nth_error (dc_job_types m) i = Some jt ->
    nth_error loads k = Some y -> (0 <= y * fst (revenue jt))%Q.
  Proof.
    intros HF HJ HL. apply Qmult_le_0_compat.
    - rewrite Forall_forall in HF. apply HF. eapply nth_error_In. exact HL.
    - apply (ot_revenue _ _ _ _ _ _ _ HO). eapply nth_error_In. exact HJ.
  Qed.

  Lemma Qsum_map_nonneg {K} (f : K -> Q) ks : (forall k, In k ks -> 0 <= f k)%Q -> (0 <= Qsum (map f ks))%Q.
  Proof. intros H. apply Qsum_nonneg_all. rewrite Forall_map. apply Forall_forall. exact H. Qed.

  Lemma revenue_nonneg t loads x : Forall (fun q => 0 <= q)%Q loads -> (0 <= type_revenue m revenue t l st x loads)%Q.
  Proof.
    intros HF. unfold type_revenue. destruct (Qle_bool x 0); [lra|].
    apply Qsum_map_nonneg. intros s _. apply Qsum_map_nonneg. intros i _.
    destruct (nth_error (dc_sources m) s) as [so|]; [|lra]. destruct (nth_error (dc_job_types m) i) as [jt|] eqn:EJ; [|lra].
    destruct (nth_error loads _) as [y|] eqn:EY; [|lra]. rewrite Qmult_assoc. apply Qmult_le_0_compat; [exact (revenue_term_nonneg _ _ _ _ _ HF EJ EY)|].
    apply qpos_cases.
  Qed.

  Lemma cost_nonneg t loads x : Forall (fun q => 0 <= q)%Q loads -> (0 <= active_cost m price power revenue l st t loads x)%Q.
  Proof.
    intros HF. unfold active_cost. pose proof (energy_nonneg loads x HF). pose proof (revenue_nonneg t loads x HF). pose proof (price_pos t).
    assert (0 <= price l t * type_energy m power st x loads)%Q by (apply Qmult_le_0_compat; lra). lra.
  Qed.

  (** *** Convexity *)
  Lemma pos_bool x : (0 < x)%Q -> Qle_bool x 0 = false.
  Proof. intros H. destruct (Qle_bool x 0) eqn:E; [|reflexivity]. apply Qle_bool_iff in E. lra. Qed.

  Lemma delay_convex loads a b c : Forall (fun q => 0 <= q)%Q loads -> (0 < Qsum loads)%Q -> (0 < a)%Q -> (a <= b)%Q -> (b <= c)%Q ->
    (work m st loads < a * dc_delta m)%Q -> convex_at a b c (fun x => sharing_delay m st x loads).
  Proof.
    intros HF HN Ha Hab Hbc HS. pose proof delta_pos as Hd. pose proof (work_ok loads HF) as Hw.
    unfold sharing_delay. destruct (Qle_bool (work m st loads) 0) eqn:EW; [unfold convex_at; lra|].
    set (w := work m st loads) in *. set (n := Qsum loads) in *.
    assert (HW : (0 < w)%Q). { apply Qnot_le_lt. intros H. apply Qle_bool_iff in H. congruence. }
    assert (E : forall x, (a <= x)%Q -> (w / n + (w / n * w) * (1 / (dc_delta m * x - w)) == 1 / (1 / (w / n) - n / x / dc_delta m))%Q).
    { intros x Hx. assert (a * dc_delta m <= x * dc_delta m)%Q by (apply Qmult_le_compat_r; lra). field. repeat split; try lra.
      assert (0 < n * (x * dc_delta m - w))%Q by (apply Qmult_lt_0_compat; lra). lra. }
    apply (convex_at_ext a b c (fun x => w / n + (w / n * w) * (1 / (dc_delta m * x - w)))%Q); [apply E; lra..|].
    apply (convex_at_plus a b c (fun _ => w / n)%Q (fun x => (w / n * w) * (1 / (dc_delta m * x - w)))%Q).
    - unfold convex_at. lra.
    - apply convex_at_scale.
      + apply Qmult_le_0_compat; [|lra]. apply div_nonneg; lra.
      + apply convex_at_inverse; try lra.
  Qed.

  Lemma energy_convex loads a b c : Forall (fun q => 0 <= q)%Q loads -> (0 < a)%Q -> (a <= b)%Q -> (b <= c)%Q ->
    convex_at a b c (fun x => type_energy m power st x loads).
  Proof.
    intros HF Ha Hab Hbc. unfold type_energy.
    apply (convex_at_ext a b c (fun x => x * power st (work m st loads / (x * dc_delta m)))%Q); [rewrite pos_bool by lra; reflexivity..|].
    apply convex_at_energy; auto using delta_pos, work_ok. exact (ot_convex _ _ _ _ _ _ _ HO).
  Qed.

  Lemma revenue_convex t loads a b c : Forall (fun q => 0 <= q)%Q loads -> (0 < Qsum loads)%Q -> (0 < a)%Q -> (a <= b)%Q -> (b <= c)%Q ->
    (work m st loads < a * dc_delta m)%Q -> convex_at a b c (fun x => type_revenue m revenue t l st x loads).
  Proof.
    intros HF HN Ha Hab Hbc HS.
    set (term := fun s i x => match nth_error (dc_sources m) s, nth_error (dc_job_types m) i, nth_error loads (s * length (dc_job_types m) + i) with
    | Some so, Some jt, Some load =>
        load * (fst (revenue jt) * qpos (sharing_delay m st x loads + so_routing_delay_to so t l + jt_processing_time_on jt st - snd (revenue jt)))
    | _, _, _ => 0
    end%Q).
    apply (convex_at_ext a b c (fun x => Qsum (map (fun s => Qsum (map (fun i => term s i x) (seq 0 (length (dc_job_types m))))) (seq 0 (length (dc_sources m))))));
      [unfold type_revenue; rewrite pos_bool by lra; reflexivity..|].
    apply (convex_at_sum a b c (fun s x => Qsum (map (fun i => term s i x) (seq 0 (length (dc_job_types m)))))). intros s _.
    apply (convex_at_sum a b c (fun i x => term s i x)). intros i _. unfold term.
    destruct (nth_error (dc_sources m) s) as [so|]; [|unfold convex_at; lra]. destruct (nth_error (dc_job_types m) i) as [jt|] eqn:EJ; [|unfold convex_at; lra].
    destruct (nth_error loads _) as [y|] eqn:EY; [|unfold convex_at; lra].
    apply (convex_at_ext a b c (fun x => (y * fst (revenue jt)) * qpos (sharing_delay m st x loads + so_routing_delay_to so t l + jt_processing_time_on jt st - snd (revenue jt)))%Q); [ring..|].
    apply convex_at_scale; [exact (revenue_term_nonneg _ _ _ _ _ HF EJ EY)|]. apply convex_at_qpos; [exact Hab|exact Hbc|].
    pose proof (delay_convex loads a b c HF HN Ha Hab Hbc HS) as HC. unfold convex_at in *. lra.
  Qed.

  Lemma idle_cost t loads x : Forall (fun q => 0 <= q)%Q loads -> (Qsum loads == 0)%Q -> (0 <= x)%Q ->
    (active_cost m price power revenue l st t loads x == price l t * (x * power st 0))%Q.
  Proof.
    intros HF HZ Hx. pose proof (Qsum_zero_all loads HF HZ) as HA. unfold active_cost.
    assert (ER : (type_revenue m revenue t l st x loads == 0)%Q).
    { unfold type_revenue. destruct (Qle_bool x 0); [reflexivity|].
      rewrite (Qsum_map_eq _ (fun _ => 0%Q)); [clear; induction (seq 0 (length (dc_sources m))); cbn [map Qsum]; [reflexivity|lra]|].
      intros s _. rewrite (Qsum_map_eq _ (fun _ => 0%Q)); [clear; induction (seq 0 (length (dc_job_types m))); cbn [map Qsum]; [reflexivity|lra]|].
      intros i _. destruct (nth_error (dc_sources m) s) as [so|]; [|reflexivity]. destruct (nth_error (dc_job_types m) i) as [jt|]; [|reflexivity].
      destruct (nth_error loads _) as [y|] eqn:EY; [|reflexivity]. rewrite Forall_forall in HA. rewrite (HA y) by (eapply nth_error_In; exact EY). ring. }
    rewrite ER. unfold type_energy. destruct (Qle_bool x 0) eqn:EX.
    - apply Qle_bool_iff in EX. assert (E : (x == 0)%Q) by lra. rewrite E. ring.
    - assert (Hp : (0 < x)%Q). { apply Qnot_le_lt. intros H. apply Qle_bool_iff in H. congruence. }
      rewrite <- (power_eq (power st) (ot_convex _ _ _ _ _ _ _ HO) 0 (work m st loads / (x * dc_delta m))); [ring|lra|].
      pose proof delta_pos. rewrite (work_zero m st loads HA). field. split; lra.
  Qed.

  Lemma cost_convex t loads a b c : Forall (fun q => 0 <= q)%Q loads -> (0 <= a)%Q -> (a <= b)%Q -> (b <= c)%Q -> supported m st a loads ->
    convex_at a b c (active_cost m price power revenue l st t loads).
  Proof.
    intros HF Ha Hab Hbc HS. destruct (Qeq_dec (Qsum loads) 0) as [EZ|EZ].
    - apply (convex_at_ext a b c (fun x => price l t * (x * power st 0))%Q); [symmetry; apply idle_cost; auto; lra..|].
      unfold convex_at. lra.
    - destruct HS as [H|(Hp & Hu & Hs)]; [contradiction|].
      assert (HN : (0 < Qsum loads)%Q). { pose proof (Qsum_nonneg_all loads HF). apply Qnot_le_lt. intros H'. apply EZ. lra. }
      unfold active_cost. apply (convex_at_plus a b c (fun x => price l t * type_energy m power st x loads)%Q (fun x => type_revenue m revenue t l st x loads)).
      + apply convex_at_scale; [apply Qlt_le_weak, price_pos|]. apply energy_convex; auto.
      + apply revenue_convex; auto.
  Qed.

  (** *** What the code computes *)
  Lemma hits_value {T} (v : value T) minimize t y lambda : trivial_exact minimize -> profile m lambda -> is_nonnegative v y ->
    exists c, apply_loads v minimize (dc_d m) (dc_e m) (dc_objective_of powf m v) lambda t [y] = Ok c /\
      (supported m st (v_toQ v y) (counted lambda) ->
         exists q, c_cost c = Fin q /\ (q == active_cost m price power revenue l st t (counted lambda) (v_toQ v y))%Q) /\
      (~ supported m st (v_toQ v y) (counted lambda) -> c_cost c = Inf).
  Proof.
    intros HM [HL HF] Hy. destruct (select_single lambda HF) as (loads & HSel & HSame).
    pose proof (counted_nonneg lambda HF) as HCN.
    assert (HSame' : same_loads (counted lambda) loads).
    { clear - HSame. induction HSame; constructor; auto. symmetry. assumption. }
    assert (HLN : Forall (fun q => 0 <= q)%Q loads).
    { clear - HCN HSame. revert HCN. induction HSame as [|a b x y E _ IH]; intros H; constructor; [inversion H; rewrite E; assumption|apply IH; inversion H; assumption]. }
    assert (HLL : length loads = dc_e m).
    { rewrite <- HL, <- (counted_length lambda). clear - HSame. induction HSame; cbn [length]; congruence. }
    rewrite HL in HSel.
    destruct (DataCenterInstances.objective_value powf m price power revenue T v t [y] lambda (new_fractions [] 1 (dc_e m)) (fun _ => loads) HD) as (o & EO & HS & HN).
    { rewrite one_d. reflexivity. }
    { constructor; [exact Hy|constructor]. }
    { intros k Hk. rewrite one_d in Hk. assert (k = 0%nat) by lia. subst k. auto. }
    cbv zeta in *. rewrite (ot_location _ _ _ _ _ _ _ HO), (ot_type _ _ _ _ _ _ _ HO) in HS, HN. cbn [length] in HS, HN.
    set (x := v_toQ v y) in *.
    assert (HX : (0 <= x)%Q) by exact Hy.
    unfold apply_loads. rewrite one_d. rewrite HL, Nat.eqb_refl. cbn [negb]. rewrite Nat.mul_1_l, Nat.ltb_irrefl, Nat.sub_diag.
    assert (EI : initial_guess v (dc_e m) 0 [y] = []).
    { unfold initial_guess. cbn [filter removelast flat_map repeat]. destruct (Qltb 0 (v_toQ v y)); reflexivity. }
    rewrite EI. cbn [length Nat.eqb negb repeat].
    rewrite (HM _ _ (obj_total match o with ROk c => c | RErr _ => obj_failure end)) by (rewrite EO; reflexivity).
    cbn [from_option obind fst snd]. rewrite EO. cbn [obind].
    destruct (supported_dec (counted lambda) x) as [SU|SU].
    - destruct HS as (e & r & -> & Ee & Er).
      { intros j k st' Hj Hk. assert (j = 0%nat) by lia. subst j. destruct k as [|[|k]]; cbn in Hk; try discriminate. injection Hk as <-.
        eapply same_supported; [reflexivity|exact HSame'|exact SU]. }
      cbn [obj_total fst snd eadd]. assert (ER : eleb (Fin (e + r)) (Fin (e + r)) = true) by (cbn; apply Qle_bool_iff; lra).
      rewrite ER. cbn [andb]. eexists. split; [reflexivity|]. cbn [c_cost]. split; [|intros H; contradiction]. intros _. exists (e + r)%Q. split; [reflexivity|].
      rewrite Ee, Er. unfold over_locations, over_types. rewrite (ot_location _ _ _ _ _ _ _ HO), (ot_type _ _ _ _ _ _ _ HO). cbn [length seq map nth_error Qsum Nat.mul Nat.add nth].
      fold x.       rewrite (same_cost t x x (counted lambda) loads HX ltac:(reflexivity) HCN HSame'). unfold active_cost. ring.
    - assert (HI : forall e r, o <> ROk (Fin e, Fin r)).
      { apply HN. exists 0%nat, 0%nat, st. split; [lia|]. split; [reflexivity|]. cbn [Nat.mul Nat.add nth]. fold x. intros H. apply SU. eapply same_supported; [reflexivity|exact HSame|exact H]. }
      destruct o as [[e r]|f].
      + assert (EI' : obj_total (e, r) = Inf).
        { unfold obj_total. cbn [fst snd]. destruct e as [e|], r as [r|]; try reflexivity. exfalso. apply (HI e r). reflexivity. }
        rewrite EI'. cbn [eleb andb]. eexists. split; [reflexivity|]. cbn [c_cost]. split; [intros H; contradiction|reflexivity].
      + eexists. split; [reflexivity|]. cbn [c_cost]. split; [intros H; contradiction|reflexivity].
  Qed.
End OneType.
