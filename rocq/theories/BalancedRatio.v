(** Proofs about the competitive ratio of lazy budgeting for SBLO: schedules which follow
    optimal prefixes lazily. *)
From Coq Require Import Lia Lqa Setoid.
From Verif Require Import NumLemmas ObjectiveSpec CostSpec CostProofs ConvertProofs ConvertObjective LoadProofs BudgetProofs BudgetRun
  GraphSearchCosts CapacityWork StreamSpec StreamProofs BalancedModel BalancedSpec BalancedSearch BalancedProofs BalancedRun BalancedSlots BalancedCount.
From Verif Require Import CostModel ProblemModel.
Local Open Scope Z_scope.

(** *** Sums over slots *)
Definition over (f : Z -> Q) (a b : Z) : Q := Qsum (map f (zrange a b)).

Lemma over_nil f a b : b < a -> over f a b = 0%Q.
Proof. intros H. unfold over. rewrite zrange_nil by lia. reflexivity. Qed.
Lemma over_snoc f a b : a <= b + 1 -> (over f a (b + 1) == over f a b + f (b + 1)%Z)%Q.
Proof. intros H. unfold over. rewrite zrange_snoc by lia. rewrite map_app, Qsum_app. cbn. lra. Qed.
Lemma over_cons f a b : a <= b -> (over f a b == f a + over f (a + 1) b)%Q.
Proof. intros H. unfold over. rewrite zrange_cons by lia. cbn. lra. Qed.
Lemma over_mono f g a b : (forall u, a <= u <= b -> (f u <= g u)%Q) -> (over f a b <= over g a b)%Q.
Proof.
  intros H. unfold over. assert (G : forall u, In u (zrange a b) -> (f u <= g u)%Q) by (intros u Hu; apply zrange_In in Hu; auto).
  clear H. induction (zrange a b) as [|u r IH]; cbn; [lra|]. pose proof (G u (or_introl eq_refl)).
  assert (forall v, In v r -> (f v <= g v)%Q) by (intros; apply G; right; assumption). specialize (IH H0). lra.
Qed.
Lemma over_nonneg f a b : (forall u, a <= u <= b -> (0 <= f u)%Q) -> (0 <= over f a b)%Q.
Proof.
  intros H. assert (G : (over (fun _ => 0%Q) a b == 0)%Q).
  { unfold over. induction (zrange a b) as [|u r IH]; cbn; [reflexivity|]. rewrite IH. lra. }
  rewrite <- G. apply over_mono. exact H.
Qed.
Lemma over_plus f g a b : (over (fun u => f u + g u)%Q a b == over f a b + over g a b)%Q.
Proof. unfold over. induction (zrange a b) as [|u r IH]; cbn; [lra|]. rewrite IH. lra. Qed.
Lemma over_scale c f a b : (over (fun u => c * f u)%Q a b == c * over f a b)%Q.
Proof. unfold over. induction (zrange a b) as [|u r IH]; cbn; [lra|]. rewrite IH. lra. Qed.
Lemma over_ext f g a b : (forall u, a <= u <= b -> (f u == g u)%Q) -> (over f a b == over g a b)%Q.
Proof. intros H. apply Qle_antisym; apply over_mono; intros u Hu; rewrite (H u Hu); lra. Qed.
Lemma over_split f a m b : a <= m + 1 -> m <= b -> (over f a b == over f a m + over f (m + 1) b)%Q.
Proof. intros H1 H2. unfold over. rewrite (zrange_split a m b) by lia. rewrite map_app. apply Qsum_app. Qed.

(** Upward movement of entry [k]. *)
Fixpoint climbs (k : nat) (a : list Z) (zs : list (list Z)) : Z :=
  match zs with
  | [] => 0
  | z :: r => Z.max 0 (nth k z 0 - nth k a 0) + climbs k z r
  end.

Lemma climbs_nonneg k zs : forall a, 0 <= climbs k a zs.
Proof. induction zs as [|z r IH]; intros a; cbn [climbs]; [lia|]. specialize (IH z). lia. Qed.

Lemma last_cons_default {A} (z : A) r a : last (z :: r) a = last r z.
Proof. revert z. induction r as [|y r IH]; intros z; [reflexivity|]. change (last (z :: y :: r) a) with (last (y :: r) a). rewrite IH. symmetry. destruct r; [reflexivity|]. change (last (y :: a0 :: r) z) with (last (a0 :: r) z). clear. revert a0. induction r; intros b; [reflexivity|]. change (last (b :: a :: r) z) with (last (a :: r) z). change (last (b :: a :: r) y) with (last (a :: r) y). apply IHr. Qed.

Lemma climbs_telescope k zs : forall a, nth k (last zs a) 0 - nth k a 0 <= climbs k a zs.
Proof.
  induction zs as [|z r IH]; intros a; [cbn; lia|]. rewrite last_cons_default. cbn [climbs]. specialize (IH z). lia.
Qed.

Lemma lowest_level k zs : forall a, zs <> [] -> Forall (fun z => 0 <= nth k z 0) zs ->
  exists m, 0 <= m /\ Forall (fun z => m <= nth k z 0) zs /\ nth k (last zs a) 0 - m <= climbs k a zs.
Proof.
  induction zs as [|z r IH]; intros a Hne H0; [congruence|]. inversion H0 as [|? ? Hz Hr]; subst. rewrite last_cons_default. cbn [climbs].
  destruct r as [|y r].
  - exists (nth k z 0). split; [exact Hz|]. split; [constructor; [lia|constructor]|]. cbn [last climbs]. lia.
  - destruct (IH z ltac:(discriminate) Hr) as (m & Hm & HA & HL). destruct (Z_le_gt_dec m (nth k z 0)) as [H|H].
    + exists m. split; [exact Hm|]. split; [constructor; auto|]. lia.
    + exists (nth k z 0). split; [exact Hz|]. split.
      * constructor; [lia|]. eapply Forall_impl; [|exact HA]. cbn beta. intros; lia.
      * pose proof (climbs_telescope k (y :: r) z). lia.
Qed.

Lemma power_up_entry bs k b : nth_error bs k = Some b -> Forall (fun b => 0 <= b)%Q bs -> forall prev x,
  length prev = length bs -> length x = length bs ->
  (b * inject_Z (Z.max 0 (nth k x 0 - nth k prev 0)%Z) <= power_up bs prev x)%Q.
Proof.
  revert k. induction bs as [|c bs IH]; intros [|k] Hk HF [|i is] [|j js] H1 H2; cbn in H1, H2; try discriminate.
  - injection Hk as ->. cbn [nth power_up]. inversion HF as [|? ? Hc HF']; subst.
    assert (0 <= power_up bs is js)%Q.
    { clear -HF'. revert is js. induction HF' as [|c bs Hc HF IH]; intros is js; cbn; [lra|]. destruct is as [|i is], js as [|j js]; try lra.
      specialize (IH is js). assert (0 <= inject_Z (Z.max 0 (j - i)))%Q by (change 0%Q with (inject_Z 0); rewrite <- Zle_Qle; lia).
      pose proof (Qmult_le_0_compat _ _ Hc H). lra. }
    lra.
  - cbn [nth_error] in Hk. cbn [nth power_up]. inversion HF as [|? ? Hc HF']; subst.
    specialize (IH k Hk HF' is js ltac:(congruence) ltac:(congruence)).
    assert (0 <= inject_Z (Z.max 0 (j - i)))%Q by (change 0%Q with (inject_Z 0); rewrite <- Zle_Qle; lia).
    pose proof (Qmult_le_0_compat _ _ Hc H). lra.
Qed.

Lemma power_up_sum bs : forall prev x, length prev = length bs -> length x = length bs ->
  (power_up bs prev x == Qsum (map (fun k => nth k bs 0%Q * inject_Z (Z.max 0 (nth k x 0 - nth k prev 0)%Z)) (seq 0 (length bs))))%Q.
Proof.
  induction bs as [|b bs IH]; intros [|i is] [|j js] H1 H2; cbn in H1, H2; try discriminate; [reflexivity|].
  cbn [length seq map power_up]. rewrite <- seq_shift, map_map. cbn [nth]. rewrite (IH is js) by congruence.
  cbn [Qsum]. reflexivity.
Qed.

Lemma Qsum_le {A} (f g : A -> Q) l : (forall a, In a l -> (f a <= g a)%Q) -> (Qsum (map f l) <= Qsum (map g l))%Q.
Proof.
  induction l as [|a l IH]; intros H; cbn; [lra|]. pose proof (H a (or_introl eq_refl)).
  specialize (IH (fun b Hb => H b (or_intror Hb))). lra.
Qed.
Lemma Qsum_plus {A} (f g : A -> Q) l : (Qsum (map (fun a => f a + g a)%Q l) == Qsum (map f l) + Qsum (map g l))%Q.
Proof. induction l as [|a l IH]; cbn; [lra|]. rewrite IH. lra. Qed.
Lemma Qsum_scale {A} c (f : A -> Q) l : (Qsum (map (fun a => c * f a)%Q l) == c * Qsum (map f l))%Q.
Proof. induction l as [|a l IH]; cbn; [lra|]. rewrite IH. lra. Qed.
Lemma over_Qsum {A} (f : A -> Z -> Q) l a b : (over (fun u => Qsum (map (fun k => f k u) l)) a b == Qsum (map (fun k => over (f k) a b) l))%Q.
Proof.
  induction l as [|x l IH].
  - cbn. unfold over. induction (zrange a b); cbn; [reflexivity|]. rewrite IHl. lra.
  - cbn [map]. change (Qsum (over (f x) a b :: map (fun k => over (f k) a b) l)) with (over (f x) a b + Qsum (map (fun k => over (f k) a b) l))%Q.
    rewrite <- IH, <- over_plus. apply over_ext. intros u _. reflexivity.
Qed.

Lemma keep_first {A} (P : A -> Prop) n l : Forall P l -> Forall P (firstn n l).
Proof. intros H. rewrite <- (firstn_skipn n l) in H. apply Forall_app in H. apply H. Qed.
Lemma keep_rest {A} (P : A -> Prop) n l : Forall P l -> Forall P (skipn n l).
Proof. intros H. rewrite <- (firstn_skipn n l) in H. apply Forall_app in H. apply H. Qed.

(** A list of witnesses. *)
Lemma witnesses {A} (P : Z -> A -> Prop) n : (forall u, 1 <= u <= Z.of_nat n -> exists a, P u a) ->
  exists l : list A, length l = n /\ forall i a, nth_error l i = Some a -> P (Z.of_nat i + 1) a.
Proof.
  induction n as [|n IH]; intros H.
  - exists []. split; [reflexivity|]. intros [|i] a Hi; discriminate.
  - destruct IH as (l & Hl & HP); [intros u Hu; apply H; lia|]. destruct (H (Z.of_nat n + 1) ltac:(lia)) as (a & Ha).
    exists (l ++ [a]). split; [rewrite app_length; cbn; lia|]. intros i b Hi.
    destruct (Nat.lt_ge_cases i n) as [Hlt|Hge].
    + rewrite nth_error_app1 in Hi by lia. auto.
    + rewrite nth_error_app2 in Hi by lia. destruct (i - length l)%nat as [|j] eqn:E; [|destruct j; discriminate].
      injection Hi as <-. replace i with n by lia. exact Ha.
Qed.

Section Ratio.
  Variable minimize :
    (list Q -> outcome ext) -> list (Q * Q) -> list Q -> list (list Q -> outcome Q) -> option (list Q * ext).
  Variable p : gsblo Z.
  Variable T : Z.
  Hypothesis HI : balanced_instance minimize p T.
  Notation d := (Z.to_nat (b_d p)).
  Notation hit := (hitting minimize p).
  Notation sw := (switching (b_switching p) false).
  Notation cost := (total_cost hit sw 1).
  Notation feasible := (feasible_config (b_bounds p)).

  (** Idle costs are finite. *)
  Definition rate (k : nat) (u : Z) : Q := match idle p k u with Fin q => q | Inf => 0%Q end.
  Hypothesis Hfin : forall k u, (k < d)%nat -> 1 <= u <= T -> is_fin (idle p k u).
  (** A configuration costs at least what its servers cost when idle. *)
  Hypothesis Hlow : forall k u x, (k < d)%nat -> 1 <= u <= T -> feasible x -> ele (Fin (inject_Z (nth k x 0%Z) * rate k u)) (hit u x).
  (** Further servers cost at most what they cost when idle. *)
  Hypothesis Hup : forall u x y, 1 <= u <= T -> feasible x -> feasible y -> (forall k, (k < d)%nat -> nth k y 0 <= nth k x 0) ->
    ele (hit u x) (eadd (hit u y) (Fin (Qsum (map (fun k => inject_Z (nth k x 0%Z) * rate k u)%Q (seq 0 d))))).

  Lemma rate_spec k u : (k < d)%nat -> 1 <= u <= T -> idle p k u = Fin (rate k u) /\ (0 <= rate k u)%Q.
  Proof.
    intros Hk Hu. pose proof (Hfin k u Hk Hu) as HF. pose proof (idle_nonneg minimize p T HI k u Hk Hu) as HN.
    unfold rate. destruct (idle p k u) as [q|]; [|contradiction]. split; [reflexivity|exact HN].
  Qed.

  Lemma io_rate k a b : (k < d)%nat -> 0 <= a -> b <= T -> eeq (idle_over p k a b) (Fin (over (rate k) (a + 1) b)).
  Proof.
    intros Hk Ha Hb. unfold idle_over, over. assert (H : forall u, In u (zrange (a + 1) b) -> idle p k u = Fin (rate k u)).
    { intros u Hu. apply zrange_In in Hu. apply rate_spec; [exact Hk|lia]. }
    induction (zrange (a + 1) b) as [|u r IH]; cbn [map]; [reflexivity|]. unfold esum. cbn [fold_right].
    rewrite (H u (or_introl eq_refl)). fold (esum (map (idle p k) r)). rewrite IH by (intros; apply H; right; assumption).
    reflexivity.
  Qed.

  Lemma hit_nonneg u x : 1 <= u <= T -> feasible x -> ele (Fin 0) (hit u x).
  Proof.
    intros Hu Hx. pose proof (d_pos minimize p T HI) as Hd. assert (Hk : (0 < d)%nat) by lia.
    eapply ele_trans; [|apply (Hlow 0%nat u x Hk Hu Hx)]. cbn. apply Qmult_le_0_compat; [|apply rate_spec; auto].
    change 0%Q with (inject_Z 0). rewrite <- Zle_Qle. destruct Hx as [|? ? ? ? [? ?] _]; cbn; lia.
  Qed.

  Lemma betas : length (b_switching p) = d /\ Forall (fun b => 0 < b)%Q (b_switching p) /\ length (b_bounds p) = d.
  Proof. destruct (bi_form _ _ _ HI) as (Hd & _ & HLb & HLs & HB & HS). repeat split; auto; lia. Qed.
  Lemma betas0 : Forall (fun b => 0 <= b)%Q (b_switching p).
  Proof. destruct betas as (_ & H & _). eapply Forall_impl; [|exact H]. cbn beta. intros; lra. Qed.
  Lemma flen x : feasible x -> length x = d.
  Proof. intros H. rewrite (feasible_length _ _ H). apply betas. Qed.
  Lemma fnon x k : feasible x -> 0 <= nth k x 0.
  Proof. unfold feasible_config. generalize (b_bounds p). intros us H. revert k. induction H as [|u j us x Hj Hx IH]; intros k; destruct k; cbn [nth]; [lia|lia|lia|apply IH]. Qed.

  Lemma cost_nonneg zs : forall t a, 1 <= t -> t + Z.of_nat (length zs) - 1 <= T -> Forall feasible zs -> length a = d ->
    ele (Fin 0) (cost t a zs).
  Proof.
    induction zs as [|z r IH]; intros t a Ht HT HF Ha; cbn [total_cost]; [cbn; lra|]. inversion HF as [|? ? Hz Hr]; subst. cbn [length] in HT.
    pose proof (hit_nonneg t z ltac:(lia) Hz) as H1. specialize (IH (t + 1) z ltac:(lia) ltac:(lia) Hr (flen _ Hz)).
    destruct betas as (HL & _). destruct (nth_error_ex (b_switching p) 0) as [b0 Hb0]; [pose proof (d_pos minimize p T HI); lia|].
    pose proof (power_up_entry _ _ _ Hb0 betas0 a z ltac:(congruence) ltac:(rewrite flen by exact Hz; congruence)) as HP.
    assert (0 <= b0 * inject_Z (Z.max 0 (nth 0 z 0 - nth 0 a 0)%Z))%Q.
    { apply Qmult_le_0_compat; [|change 0%Q with (inject_Z 0); rewrite <- Zle_Qle; lia].
      pose proof betas0 as HB. rewrite Forall_forall in HB. apply HB. eapply nth_error_In; exact Hb0. }
    unfold switching at 1. destruct (hit t z), (cost (t + 1) z r); cbn in *; auto. lra.
  Qed.

  (** What a part of a schedule costs for one type of servers. *)
  Lemma type_cost k b zs : nth_error (b_switching p) k = Some b -> forall t a, 1 <= t -> t + Z.of_nat (length zs) - 1 <= T ->
    Forall feasible zs -> length a = d ->
    ele (Fin (over (fun u => inject_Z (nth k (nth (Z.to_nat (u - t)) zs []) 0%Z) * rate k u)%Q t (t + Z.of_nat (length zs) - 1)
              + b * inject_Z (climbs k a zs))) (cost t a zs).
  Proof.
    intros Hb. destruct betas as (HL & HP & _). pose proof (dim_lt minimize p T HI k b Hb) as Hk.
    induction zs as [|z r IH]; intros t a Ht HT HF Ha.
    - cbn [total_cost length climbs]. rewrite over_nil by lia. change (inject_Z 0) with 0%Q. cbn [ele]. lra.
    - inversion HF as [|? ? Hz Hr]; subst. cbn [length] in HT. cbn [total_cost].
      specialize (IH (t + 1) z ltac:(lia) ltac:(lia) Hr (flen _ Hz)).
      pose proof (Hlow k t z Hk ltac:(lia) Hz) as H1.
      pose proof (power_up_entry _ _ _ Hb betas0 a z ltac:(congruence) ltac:(rewrite flen by exact Hz; congruence)) as H2.
      cbn [length climbs]. replace (t + Z.of_nat (S (length r)) - 1) with (t + 1 + Z.of_nat (length r) - 1) by lia.
      rewrite over_cons by lia.
      rewrite (over_ext (fun u => inject_Z (nth k (nth (Z.to_nat (u - t)) (z :: r) []) 0%Z) * rate k u)%Q
                        (fun u => inject_Z (nth k (nth (Z.to_nat (u - (t + 1))) r []) 0%Z) * rate k u)%Q (t + 1)).
      2:{ intros u Hu. replace (Z.to_nat (u - t)) with (S (Z.to_nat (u - (t + 1)))) by lia. reflexivity. }
      replace (Z.to_nat (t - t)) with 0%nat by lia. cbn [nth]. rewrite inject_Z_plus. unfold switching at 1.
      destruct (hit t z), (cost (t + 1) z r); cbn in *; auto. lra.
  Qed.

  (** Having [n] servers at the end costs at least n times the switching cost, if none were
      active before or the idle costs exceed the switching cost. *)
  Lemma level_cost k b zs t a : nth_error (b_switching p) k = Some b -> zs <> [] -> 1 <= t -> t + Z.of_nat (length zs) - 1 <= T ->
    Forall feasible zs -> length a = d ->
    nth k a 0 = 0 \/ (b <= over (rate k) t (t + Z.of_nat (length zs) - 1))%Q ->
    ele (Fin (b * inject_Z (nth k (last zs a) 0%Z))) (cost t a zs).
  Proof.
    intros Hb Hne Ht HT HF Ha H. eapply ele_trans; [|apply (type_cost k b zs Hb t a Ht HT HF Ha)].
    destruct betas as (HL & HP & _). pose proof (dim_lt minimize p T HI k b Hb) as Hk.
    assert (Hb0 : (0 <= b)%Q) by (pose proof betas0 as HB; rewrite Forall_forall in HB; eapply HB, nth_error_In, Hb).
    assert (HN : Forall (fun z => 0 <= nth k z 0) zs) by (eapply Forall_impl; [|exact HF]; intros z Hz; apply fnon; exact Hz).
    destruct H as [H|H].
    - pose proof (climbs_telescope k zs a) as HC. rewrite H in HC.
      assert (inject_Z (nth k (last zs a) 0%Z) <= inject_Z (climbs k a zs))%Q by (rewrite <- Zle_Qle; lia).
      assert (b * inject_Z (nth k (last zs a) 0%Z) <= b * inject_Z (climbs k a zs))%Q by (rewrite !(Qmult_comm b); apply Qmult_le_compat_r; assumption).
      assert (0 <= over (fun u => inject_Z (nth k (nth (Z.to_nat (u - t)) zs []) 0%Z) * rate k u)%Q t (t + Z.of_nat (length zs) - 1))%Q.
      { apply over_nonneg. intros u Hu. apply Qmult_le_0_compat; [|apply rate_spec; [exact Hk|lia]].
        change 0%Q with (inject_Z 0). rewrite <- Zle_Qle.
        destruct (nth_in_or_default (Z.to_nat (u - t)) zs []) as [Hin|E]; [rewrite Forall_forall in HN; apply HN; exact Hin|rewrite E; destruct k; cbn; lia]. }
      cbn. lra.
    - destruct (lowest_level k zs a Hne HN) as (m & Hm & HA & HC).
      assert (H1 : (inject_Z m * over (rate k) t (t + Z.of_nat (length zs) - 1) <=
                    over (fun u => inject_Z (nth k (nth (Z.to_nat (u - t)) zs []) 0%Z) * rate k u)%Q t (t + Z.of_nat (length zs) - 1))%Q).
      { rewrite <- over_scale. apply over_mono. intros u Hu. apply Qmult_le_compat_r; [|apply rate_spec; [exact Hk|lia]].
        rewrite <- Zle_Qle. rewrite Forall_forall in HA. apply HA. apply nth_In. lia. }
      assert (H0 : (0 <= inject_Z m)%Q) by (change 0%Q with (inject_Z 0); rewrite <- Zle_Qle; lia).
      assert (H2 : (inject_Z m * b <= inject_Z m * over (rate k) t (t + Z.of_nat (length zs) - 1))%Q)
        by (rewrite !(Qmult_comm (inject_Z m)); apply Qmult_le_compat_r; assumption).
      assert (H3 : (inject_Z (nth k (last zs a) 0%Z) - inject_Z m <= inject_Z (climbs k a zs))%Q).
      { unfold Qminus. rewrite <- inject_Z_opp, <- inject_Z_plus, <- Zle_Qle. lia. }
      assert (H4 : (b * (inject_Z (nth k (last zs a) 0%Z) - inject_Z m) <= b * inject_Z (climbs k a zs))%Q)
        by (rewrite !(Qmult_comm b); apply Qmult_le_compat_r; assumption).
      cbn. lra.
  Qed.

  (** *** A lazy schedule *)
  Variables ups xs : list (list Z).
  Hypothesis HL : lazy_schedule minimize p T ups xs.
  Notation zero := (zero_config (b_d p)).

  Lemma zero_len : length zero = d. Proof. apply repeat_length. Qed.
  Lemma zero_nth k : nth k zero 0 = 0.
  Proof. unfold zero_config. generalize d. intros n. revert k. induction n as [|n IH]; intros [|k]; cbn; auto. Qed.

  Definition powered (k : nat) (u : Z) : Z := zsum (map (fun s => entry ups s k) (zrange 1 u)).
  Lemma powered_snoc k u : 0 <= u -> powered k (u + 1) = powered k u + entry ups (u + 1) k.
  Proof. intros H. unfold powered. rewrite zrange_snoc by lia. rewrite map_app, zsum_app. cbn. lia. Qed.

  Lemma ups_nonneg s k : (k < d)%nat -> 1 <= s <= T -> 0 <= entry ups s k.
  Proof. intros. eapply entries_nonneg; eauto. Qed.

  Lemma powered_mono k u v : (k < d)%nat -> 0 <= u <= v -> v <= T -> powered k u <= powered k v.
  Proof.
    intros Hk Hu Hv. replace v with (u + Z.of_nat (Z.to_nat (v - u))) in * by lia. revert Hu Hv.
    induction (Z.to_nat (v - u)) as [|j IH]; intros Hu Hv; [rewrite Z.add_0_r; lia|].
    replace (u + Z.of_nat (S j)) with (u + Z.of_nat j + 1) by lia. rewrite powered_snoc by lia.
    pose proof (ups_nonneg (u + Z.of_nat j + 1) k Hk ltac:(lia)). specialize (IH ltac:(lia) ltac:(lia)). lia.
  Qed.

  Lemma prefix_cost v zs : Forall feasible zs -> 0 <= v <= Z.of_nat (length zs) -> Z.of_nat (length zs) <= T ->
    exists a, length a = d /\ a = last (firstn (Z.to_nat v) zs) zero /\
    eeq (cost 1 zero zs) (eadd (cost 1 zero (firstn (Z.to_nat v) zs)) (cost (1 + v) a (skipn (Z.to_nat v) zs))).
  Proof.
    intros HF Hv HT. exists (last (firstn (Z.to_nat v) zs) zero). split; [|split; [reflexivity|]].
    - destruct (firstn (Z.to_nat v) zs) as [|z0 r0] eqn:E; [|destruct (@exists_last _ (z0 :: r0)) as (l & a & E2); [discriminate|rewrite E2 in *]].
      + apply zero_len.
      + rewrite last_last. apply flen. rewrite Forall_forall in HF. apply HF. rewrite <- (firstn_skipn (Z.to_nat v) zs), E.
        apply in_or_app. left. apply in_or_app. right. left. reflexivity.
    - rewrite <- (firstn_skipn (Z.to_nat v) zs) at 1. rewrite total_cost_app. rewrite firstn_length_le by lia. rewrite Z2Nat.id by lia. reflexivity.
  Qed.

  Lemma last_expired k b u : (0 <= b)%Q -> forall n : nat, Z.of_nat n < u ->
    (forall s, Z.of_nat n < s <= u -> (over (rate k) (s + 1) u <= b)%Q) ->
    exists v, 0 <= v < u /\ (v = 0 \/ (b <= over (rate k) (v + 1) u)%Q) /\
      forall s, v < s <= u -> (over (rate k) (s + 1) u <= b)%Q.
  Proof.
    intros Hb. induction n as [|n IH]; intros Hn H.
    - exists 0. split; [lia|]. split; [left; reflexivity|exact H].
    - destruct (Qlt_le_dec b (over (rate k) (Z.of_nat (S n) + 1) u)) as [Hlt|Hle].
      + exists (Z.of_nat (S n)). split; [lia|]. split; [right; lra|exact H].
      + apply IH; [lia|]. intros s Hs. destruct (Z.eq_dec s (Z.of_nat (S n))) as [->|]; [exact Hle|apply H; lia].
  Qed.

  Lemma active_sum k b u : nth_error (b_switching p) k = Some b -> 1 <= u <= T ->
    entry xs u k = wsum (fun s => entry ups s k) (fun s => eleb (idle_over p k s u) (Fin b)) (zrange 1 u).
  Proof. intros Hb Hu. apply (active_at minimize p T HI T u ups xs k b); auto; lia. Qed.

  Lemma kept_since k b u v : nth_error (b_switching p) k = Some b -> 1 <= u <= T -> 0 <= v < u ->
    (forall s, v < s <= u -> (over (rate k) (s + 1) u <= b)%Q) -> powered k u <= powered k v + entry xs u k.
  Proof.
    intros Hb Hu Hv H. pose proof (dim_lt minimize p T HI k b Hb) as Hk. rewrite (active_sum k b u Hb Hu).
    unfold powered. rewrite (zrange_split 1 v u) by lia. rewrite map_app, zsum_app, wsum_app.
    assert (H1 : 0 <= wsum (fun s => entry ups s k) (fun s => eleb (idle_over p k s u) (Fin b)) (zrange 1 v)).
    { apply wsum_nonneg. intros s Hs. apply zrange_In in Hs. apply ups_nonneg; [exact Hk|lia]. }
    assert (H2 : wsum (fun s => entry ups s k) (fun s => eleb (idle_over p k s u) (Fin b)) (zrange (v + 1) u) =
                 zsum (map (fun s => entry ups s k) (zrange (v + 1) u))).
    { unfold wsum. f_equal. f_equal. assert (G : forall s, In s (zrange (v + 1) u) -> eleb (idle_over p k s u) (Fin b) = true).
      { intros s Hs. apply zrange_In in Hs. apply eleb_iff. rewrite (io_rate k s u Hk) by lia. cbn. apply H. lia. }
      induction (zrange (v + 1) u) as [|s r IH]; [reflexivity|]. cbn [filter]. rewrite (G s (or_introl eq_refl)).
      f_equal. apply IH. intros; apply G; right; assumption. }
    lia.
  Qed.

  (** Powering up servers is never more expensive than what any schedule costs. *)
  Lemma powered_cost k b : nth_error (b_switching p) k = Some b -> forall n u zs, Z.to_nat u = n -> 0 <= u <= T ->
    feasible_schedule u (b_bounds p) zs -> ele (Fin (b * inject_Z (powered k u))) (cost 1 zero zs).
  Proof.
    intros Hb. pose proof (dim_lt minimize p T HI k b Hb) as Hk.
    assert (Hb0 : (0 <= b)%Q) by (pose proof betas0 as HB; rewrite Forall_forall in HB; eapply HB, nth_error_In, Hb).
    induction n as [n IH] using lt_wf_ind. intros u zs Hn Hu Hzs.
    destruct (Z.eq_dec u 0) as [->|Hu0].
    { destruct Hzs as [HZ _]. destruct zs; [|cbn in HZ; lia]. cbn [total_cost].
      unfold powered. rewrite zrange_nil by lia. cbn [map]. change (inject_Z (zsum [])) with 0%Q. cbn [ele]. lra. }
    pose proof HL as (_ & _ & _ & H). destruct (H u ltac:(lia)) as (opts & opt & HO & HC).
    destruct (HC k b Hb) as (o & Ho & E1 & E2).
    destruct (Z.eq_dec (entry ups u k) 0) as [E0|E0].
    - (* nothing powered up *)
      destruct Hzs as [HZ HF]. destruct (prefix_cost (u - 1) zs HF ltac:(lia) ltac:(lia)) as (a & Ha & _ & ->).
      assert (EP : powered k u = powered k (u - 1)).
      { pose proof (powered_snoc k (u - 1) ltac:(lia)) as E. replace (u - 1 + 1) with u in E by lia. lia. }
      rewrite EP. assert (G : ele (Fin (b * inject_Z (powered k (u - 1)))) (cost 1 zero (firstn (Z.to_nat (u - 1)) zs))).
      { apply (IH (Z.to_nat (u - 1))); [lia|reflexivity|lia|]. split; [rewrite firstn_length_le by lia; lia|apply keep_first; exact HF]. }
      assert (G2 : ele (Fin 0) (cost (1 + (u - 1)) a (skipn (Z.to_nat (u - 1)) zs))).
      { apply cost_nonneg; [lia|rewrite skipn_length; lia|apply keep_rest; exact HF|exact Ha]. }
      destruct (cost 1 zero _), (cost _ a _); cbn in *; auto. lra.
    - assert (Eo : entry xs u k = o) by lia.
      destruct HO as (HF & _ & Hmin). eapply ele_trans; [|apply (Hmin zs Hzs)]. destruct HF as [HZ HF].
      destruct (last_expired k b u Hb0 (Z.to_nat (u - 1)) ltac:(lia)) as (v & Hv & HE & HK).
      { intros s Hs. assert (s = u) as -> by lia. rewrite over_nil by lia. exact Hb0. }
      destruct (prefix_cost v (opts ++ [opt]) HF ltac:(lia) ltac:(lia)) as (a & Ha & Ea & ->).
      pose proof (kept_since k b u v Hb ltac:(lia) Hv HK) as HS. rewrite Eo in HS.
      assert (G : ele (Fin (b * inject_Z (powered k v))) (cost 1 zero (firstn (Z.to_nat v) (opts ++ [opt])))).
      { apply (IH (Z.to_nat v)); [lia|reflexivity|lia|]. split; [rewrite firstn_length_le by lia; lia|apply keep_first; exact HF]. }
      assert (HLen : length (skipn (Z.to_nat v) (opts ++ [opt])) = Z.to_nat (u - v)) by (rewrite skipn_length; lia).
      assert (G2 : ele (Fin (b * inject_Z o)) (cost (1 + v) a (skipn (Z.to_nat v) (opts ++ [opt])))).
      { assert (EL : nth k (last (skipn (Z.to_nat v) (opts ++ [opt])) a) 0 = o).
        { rewrite app_length in HZ; cbn in HZ. rewrite skipn_app. replace (Z.to_nat v - length opts)%nat with 0%nat by lia. cbn [skipn].
          rewrite last_last. rewrite (nth_error_nth _ _ 0 Ho). reflexivity. }
        rewrite <- EL. apply level_cost; auto.
        - intros E. rewrite E in HLen. cbn in HLen. lia.
        - lia.
        - rewrite HLen. lia.
        - apply keep_rest. exact HF.
        - destruct HE as [->|HE]; [left; rewrite Ea; cbn; apply zero_nth|right].
          rewrite HLen. replace (1 + v + Z.of_nat (Z.to_nat (u - v)) - 1) with u by lia. replace (1 + v) with (v + 1) by lia. exact HE. }
      assert (G3 : (b * inject_Z (powered k u) <= b * inject_Z (powered k v) + b * inject_Z o)%Q).
      { rewrite <- Qmult_plus_distr_r, <- inject_Z_plus. rewrite !(Qmult_comm b). apply Qmult_le_compat_r; [rewrite <- Zle_Qle; lia|exact Hb0]. }
      clear - G G2 G3. destruct (cost 1 zero _), (cost _ a _); cbn [eadd ele] in *; auto. lra.
  Qed.

  (** Idle costs of the servers powered up. *)
  Lemma window_sum k b s : (k < d)%nat -> (0 <= b)%Q -> forall n : nat, 1 <= s -> s + Z.of_nat n <= T ->
    (over (fun u => if eleb (idle_over p k s u) (Fin b) then rate k u else 0) (s + 1) (s + Z.of_nat n) <= b)%Q.
  Proof.
    intros Hk Hb. induction n as [|n IH]; intros Hs HT; [rewrite over_nil by lia; exact Hb|].
    destruct (eleb (idle_over p k s (s + Z.of_nat (S n))) (Fin b)) eqn:E.
    - rewrite (over_ext _ (rate k)).
      + apply eleb_iff in E. rewrite (io_rate k _ _ Hk) in E by lia. exact E.
      + intros u Hu. replace (eleb (idle_over p k s u) (Fin b)) with true; [reflexivity|]. symmetry. apply eleb_iff.
        apply (io_mono_le minimize p T HI k s u (s + Z.of_nat (S n)) b); auto; try lia. apply eleb_iff. exact E.
    - replace (s + Z.of_nat (S n)) with (s + Z.of_nat n + 1) in * by lia. rewrite over_snoc by lia. rewrite E.
      specialize (IH Hs ltac:(lia)). lra.
  Qed.

  Lemma idle_sum k b : nth_error (b_switching p) k = Some b ->
    forall c, (forall u, 1 <= u <= T -> (rate k u <= c * b)%Q) -> forall n : nat, Z.of_nat n <= T ->
    (over (fun u => inject_Z (entry xs u k) * rate k u) 1 (Z.of_nat n) <= (1 + c) * (b * inject_Z (powered k (Z.of_nat n))))%Q.
  Proof.
    intros Hb c Hc n HT. pose proof (dim_lt minimize p T HI k b Hb) as Hk.
    assert (Hb0 : (0 <= b)%Q) by (pose proof betas0 as HB; rewrite Forall_forall in HB; eapply HB, nth_error_In, Hb).
    set (N := Z.of_nat n).
    (* each server contributes from when it is powered up *)
    set (share := fun s u => (if (s <=? u) && eleb (idle_over p k s u) (Fin b) then inject_Z (entry ups s k) * rate k u else 0)%Q).
    assert (G1 : (over (fun u => inject_Z (entry xs u k) * rate k u) 1 N == over (fun u => Qsum (map (fun s => share s u) (zrange 1 N))) 1 N)%Q).
    { apply over_ext. intros u Hu. rewrite (active_sum k b u Hb) by lia.
      rewrite (zrange_split 1 u N) by lia. rewrite map_app, Qsum_app.
      assert (Z0 : (Qsum (map (fun s => share s u) (zrange (u + 1) N)) == 0)%Q).
      { assert (GG : forall s, In s (zrange (u + 1) N) -> share s u = 0%Q).
        { intros s Hs. apply zrange_In in Hs. unfold share. replace (s <=? u) with false by lia. reflexivity. }
        induction (zrange (u + 1) N) as [|s r IH]; cbn; [reflexivity|]. rewrite (GG s (or_introl eq_refl)), IH by (intros; apply GG; right; assumption). lra. }
      rewrite Z0, Qplus_0_r. unfold wsum.
      assert (GG : forall s, In s (zrange 1 u) -> (s <=? u) = true) by (intros s Hs; apply zrange_In in Hs; lia).
      induction (zrange 1 u) as [|s r IH]; [cbn [map filter Qsum]; change (inject_Z (zsum [])) with 0%Q; lra|]. cbn [map Qsum filter]. specialize (IH (fun v Hv => GG v (or_intror Hv))).
      unfold share at 1. rewrite (GG s (or_introl eq_refl)). cbn [andb].
      destruct (eleb (idle_over p k s u) (Fin b)).
      - cbn [map]. change (zsum (entry ups s k :: map (fun v => entry ups v k) (filter (fun w => eleb (idle_over p k w u) (Fin b)) r)))
          with (entry ups s k + zsum (map (fun v => entry ups v k) (filter (fun w => eleb (idle_over p k w u) (Fin b)) r))).
        rewrite inject_Z_plus, Qmult_plus_distr_l, IH. lra.
      - rewrite IH. lra. }
    rewrite G1, over_Qsum. unfold powered.
    assert (G2 : forall s, 1 <= s <= N -> (over (share s) 1 N <= inject_Z (entry ups s k) * ((1 + c) * b))%Q).
    { intros s Hs. rewrite (over_split _ 1 (s - 1) N) by lia.
      assert (E0 : (over (share s) 1 (s - 1) == 0)%Q).
      { rewrite (over_ext _ (fun _ => 0 * 0)%Q).
        - rewrite over_scale. lra.
        - intros u Hu. unfold share. replace (s <=? u) with false by lia. cbn [andb]. lra. }
      rewrite E0, Qplus_0_l. replace (s - 1 + 1) with s by lia. rewrite over_cons by lia.
      assert (H0 : (0 <= inject_Z (entry ups s k))%Q) by (change 0%Q with (inject_Z 0); rewrite <- Zle_Qle; apply ups_nonneg; [exact Hk|lia]).
      assert (ES : (share s s <= inject_Z (entry ups s k) * (c * b))%Q).
      { unfold share. rewrite Z.leb_refl. unfold idle_over. rewrite zrange_nil by lia. cbn [map esum fold_right andb].
        replace (eleb (Fin 0) (Fin b)) with true by (symmetry; apply eleb_iff; exact Hb0).
        rewrite !(Qmult_comm (inject_Z _)). apply Qmult_le_compat_r; [apply Hc; lia|exact H0]. }
      assert (ER : (over (share s) (s + 1) N <= inject_Z (entry ups s k) * b)%Q).
      { rewrite (over_ext _ (fun u => inject_Z (entry ups s k) * (if eleb (idle_over p k s u) (Fin b) then rate k u else 0))%Q).
        - rewrite over_scale. rewrite !(Qmult_comm (inject_Z _)). apply Qmult_le_compat_r; [|exact H0].
          pose proof (window_sum k b s Hk Hb0 (Z.to_nat (N - s)) ltac:(lia) ltac:(lia)) as HW.
          replace (s + Z.of_nat (Z.to_nat (N - s))) with N in HW by lia. exact HW.
        - intros u Hu. unfold share. replace (s <=? u) with true by lia. cbn [andb]. destruct (eleb _ _); lra. }
      lra. }
    assert (G3 : (Qsum (map (fun s => over (share s) 1 N) (zrange 1 N)) <= Qsum (map (fun s => ((1 + c) * b) * inject_Z (entry ups s k))%Q (zrange 1 N)))%Q).
    { apply Qsum_le. intros s Hs. apply zrange_In in Hs. rewrite (Qmult_comm _ (inject_Z _)). apply G2. lia. }
    rewrite Qsum_scale in G3.
    assert (G4 : forall l, (Qsum (map (fun s => inject_Z (entry ups s k)) l) == inject_Z (zsum (map (fun s => entry ups s k) l)))%Q).
    { induction l as [|s r IH]; [reflexivity|]. cbn [map Qsum]. rewrite IH.
      change (zsum (entry ups s k :: map (fun s0 => entry ups s0 k) r)) with (entry ups s k + zsum (map (fun s0 => entry ups s0 k) r)).
      rewrite inject_Z_plus. reflexivity. }
    rewrite G4 in G3. lra.
  Qed.

  (** Movement of the schedule. *)
  Lemma movement k b u : nth_error (b_switching p) k = Some b -> 1 <= u <= T ->
    entry xs u k - (if u =? 1 then 0 else entry xs (u - 1) k) <= entry ups u k.
  Proof.
    intros Hb Hu. pose proof (dim_lt minimize p T HI k b Hb) as Hk. rewrite (active_sum k b u Hb Hu).
    destruct (dims minimize p T HI k Hk) as (f & beta' & bound & _ & Hb' & _ & Hpos).
    assert (beta' = b) by congruence. subst beta'.
    rewrite (kept_split p u ups k b ltac:(lia) Hk ltac:(lra)).
    destruct (u =? 1) eqn:E1.
    - assert (u = 1) as -> by lia. unfold kept. rewrite zrange_nil by lia. cbn. lia.
    - rewrite (active_sum k b (u - 1) Hb ltac:(lia)).
      assert (kept p ups u k b <= wsum (fun s => entry ups s k) (fun s => eleb (idle_over p k s (u - 1)) (Fin b)) (zrange 1 (u - 1))); [|lia].
      unfold kept. apply (wsum_le (fun s => entry ups s k) (fun s => eleb (idle_over p k s (u - 1)) (Fin b)) (fun s => eleb (idle_over p k s u) (Fin b))).
      + intros s Hs. apply zrange_In in Hs. apply ups_nonneg; [exact Hk|lia].
      + intros s Hs. apply zrange_In in Hs. rewrite !eleb_iff. apply (io_mono_le minimize p T HI k s (u - 1) u b); auto; lia.
  Qed.

  (** *** The schedule as a whole *)
  Definition target (u : Z) (o : list Z) : Prop := exists opts, optimal_prefix minimize p u (opts ++ [o]) /\ lazy_choice p ups xs u o.

  Variable os : list (list Z).
  Hypothesis Hlos : Z.of_nat (length os) = T.
  Hypothesis Hos : forall i o, nth_error os i = Some o -> target (Z.of_nat i + 1) o.

  Definition goal (u : Z) : list Z := nth (Z.to_nat (u - 1)) os [].
  Definition level (u : Z) : Q := match hit u (goal u) with Fin q => q | Inf => 0%Q end.

  Lemma goal_spec u : 1 <= u <= T -> target u (goal u).
  Proof.
    intros Hu. unfold goal. destruct (nth_error os (Z.to_nat (u - 1))) as [o|] eqn:E; [|apply nth_error_None in E; lia].
    rewrite (nth_error_nth _ _ [] E). apply Hos in E. replace (Z.of_nat (Z.to_nat (u - 1)) + 1) with u in E by lia. exact E.
  Qed.

  Lemma goal_cost u : 1 <= u <= T -> feasible (goal u) /\ hit u (goal u) = Fin (level u) /\
    forall ys, feasible_schedule u (b_bounds p) ys -> exists zs, feasible_schedule (u - 1) (b_bounds p) zs /\
      ele (eadd (cost 1 zero zs) (Fin (level u))) (cost 1 zero ys).
  Proof.
    intros Hu. destruct (goal_spec u Hu) as (opts & ((HZ & HF) & Hf & Hmin) & _).
    apply Forall_app in HF as [HF HG]. apply Forall_inv in HG as Hg.
    rewrite app_length in HZ. cbn [length] in HZ. split; [exact Hg|].
    pose proof (total_cost_snoc hit sw 1 opts 1 zero (goal u)) as E. replace (1 + Z.of_nat (length opts)) with u in E by lia.
    assert (HFF : is_fin (hit u (goal u))).
    { apply (eeq_fin _ _ (eeq_sym _ _ E)) in Hf. apply is_fin_eadd in Hf as [_ Hf]. apply is_fin_eadd in Hf as [Hf _]. exact Hf. }
    assert (EL : hit u (goal u) = Fin (level u)) by (unfold level; destruct (hit u (goal u)); [reflexivity|contradiction]).
    split; [exact EL|]. intros ys Hys. exists opts. split; [split; [lia|exact HF]|].
    eapply ele_trans; [|apply (Hmin ys Hys)]. rewrite E, EL.
    assert (Hs : (0 <= sw (last opts zero) (goal u))%Q).
    { destruct betas as (HLn & _). destruct (nth_error_ex (b_switching p) 0) as [b0 Hb0]; [pose proof (d_pos minimize p T HI); lia|].
      assert (HLa : length (last opts zero) = d).
      { destruct opts as [|z r]; [apply zero_len|]. apply flen. rewrite Forall_forall in HF. apply HF.
        destruct (@exists_last _ (z :: r) ltac:(discriminate)) as (l & a & ->). rewrite last_last. apply in_or_app. right. left. reflexivity. }
      pose proof (power_up_entry _ _ _ Hb0 betas0 (last opts zero) (goal u) ltac:(congruence) ltac:(rewrite flen by exact Hg; congruence)) as HP.
      assert (0 <= b0 * inject_Z (Z.max 0 (nth 0 (goal u) 0 - nth 0 (last opts zero) 0)%Z))%Q.
      { apply Qmult_le_0_compat; [|change 0%Q with (inject_Z 0); rewrite <- Zle_Qle; lia].
        pose proof betas0 as HB. rewrite Forall_forall in HB. apply HB. eapply nth_error_In; exact Hb0. }
      unfold switching. lra. }
    clear -Hs. destruct (cost 1 zero opts); cbn [eadd ele]; auto. lra.
  Qed.

  Lemma follow_cost n : Z.of_nat n <= T -> forall zs, feasible_schedule (Z.of_nat n) (b_bounds p) zs ->
    ele (Fin (over level 1 (Z.of_nat n))) (cost 1 zero zs).
  Proof.
    induction n as [|n IH]; intros HT zs Hzs.
    - destruct Hzs as [HZ _]. destruct zs; [|cbn in HZ; lia]. rewrite over_nil by lia. cbn. lra.
    - destruct (goal_cost (Z.of_nat (S n)) ltac:(lia)) as (_ & _ & G). destruct (G zs Hzs) as (ys & Hys & HC).
      replace (Z.of_nat (S n) - 1) with (Z.of_nat n) in Hys by lia. specialize (IH ltac:(lia) ys Hys).
      eapply ele_trans; [|exact HC]. replace (Z.of_nat (S n)) with (Z.of_nat n + 1) by lia. rewrite over_snoc by lia.
      clear -IH. destruct (cost 1 zero ys); cbn [eadd ele] in *; auto. lra.
  Qed.

  Notation beta k := (nth k (b_switching p) 0%Q).
  Definition share (u : Z) : Q :=
    (level u + Qsum (map (fun k => inject_Z (entry xs u k) * rate k u + beta k * inject_Z (entry ups u k)) (seq 0 d)))%Q.

  Lemma beta_spec k : (k < d)%nat -> nth_error (b_switching p) k = Some (beta k) /\ (0 <= beta k)%Q.
  Proof.
    intros Hk. destruct betas as (HLn & _). destruct (nth_error_ex (b_switching p) k) as [b Hb]; [lia|].
    rewrite (nth_error_nth _ _ 0%Q Hb). split; [exact Hb|]. pose proof betas0 as HB. rewrite Forall_forall in HB. eapply HB, nth_error_In, Hb.
  Qed.

  Lemma schedule_cost n : Z.of_nat n <= T -> ele (cost 1 zero (firstn n xs)) (Fin (over share 1 (Z.of_nat n))).
  Proof.
    pose proof HL as ((HZ & HF) & _). destruct betas as (HLn & _).
    induction n as [|n IH]; intros HT; [rewrite over_nil by lia; cbn; lra|]. specialize (IH ltac:(lia)).
    destruct (nth_error_ex xs n) as [x Hx]; [lia|].
    assert (EF : firstn (S n) xs = firstn n xs ++ [x]).
    { clear -Hx. revert xs Hx. induction n as [|n IH]; intros [|y r] Hx; cbn in Hx; try discriminate; [injection Hx as ->; reflexivity|].
      cbn [firstn app]. rewrite <- (IH r Hx). reflexivity. }
    rewrite EF. pose proof (total_cost_snoc hit sw 1 (firstn n xs) 1 zero x) as E. rewrite E. clear E.
    rewrite firstn_length_le by lia. set (u := Z.of_nat n + 1). replace (1 + Z.of_nat n) with u by lia.
    replace (Z.of_nat (S n)) with (Z.of_nat n + 1) by lia. rewrite over_snoc by lia. fold u.
    assert (Hfx : feasible x) by (rewrite Forall_forall in HF; eapply HF, nth_error_In, Hx).
    assert (Ex : forall k, nth k x 0 = entry xs u k).
    { intros k. unfold entry. replace (Z.to_nat (u - 1)) with n by lia. rewrite (nth_error_nth _ _ [] Hx). reflexivity. }
    destruct (goal_cost u ltac:(lia)) as (Hg & EG & _).
    assert (H1 : ele (hit u x) (Fin (level u + Qsum (map (fun k => inject_Z (entry xs u k) * rate k u)%Q (seq 0 d))))).
    { pose proof (Hup u x (goal u) ltac:(lia) Hfx Hg) as H. rewrite EG in H. cbn [eadd] in H.
      eapply ele_trans; [apply H|].
      - intros k Hk. destruct (beta_spec k Hk) as [Hb _]. destruct (goal_spec u ltac:(lia)) as (opts & _ & HC).
        destruct (HC k _ Hb) as (o & Ho & E1 & _). rewrite (nth_error_nth _ _ 0 Ho), Ex. lia.
      - cbn [ele]. apply Qplus_le_r. apply Qsum_le. intros k _. rewrite Ex. lra. }
    assert (H2 : (sw (last (firstn n xs) zero) x <= Qsum (map (fun k => beta k * inject_Z (entry ups u k))%Q (seq 0 d)))%Q).
    { unfold switching.
      assert (EP : forall k, nth k (last (firstn n xs) zero) 0 = if u =? 1 then 0 else entry xs (u - 1) k).
      { intros k. destruct n as [|m].
        - cbn [firstn last]. replace (u =? 1) with true by lia. apply zero_nth.
        - replace (u =? 1) with false by lia. unfold entry. replace (Z.to_nat (u - 1 - 1)) with m by lia.
          assert (HN : firstn (S m) xs <> []) by (destruct xs; [cbn in Hx; discriminate|discriminate]).
          rewrite (last_nth _ _ HN). rewrite firstn_length_le by lia. replace (S m - 1)%nat with m by lia.
          destruct (nth_error_ex xs m) as [y Hy]; [lia|].
          rewrite (nth_error_nth _ _ [] Hy). f_equal. apply nth_error_nth.
          rewrite <- (firstn_skipn (S m) xs) in Hy. rewrite nth_error_app1 in Hy by (rewrite firstn_length_le by lia; lia). exact Hy. }
      assert (HLa : length (last (firstn n xs) zero) = d).
      { destruct (firstn n xs) as [|z r] eqn:E; [apply zero_len|]. apply flen. rewrite Forall_forall in HF. apply HF.
        rewrite <- (firstn_skipn n xs), E. apply in_or_app. left.
        destruct (@exists_last _ (z :: r) ltac:(discriminate)) as (l & a & ->). rewrite last_last. apply in_or_app. right. left. reflexivity. }
      rewrite power_up_sum; [|congruence|rewrite flen by exact Hfx; congruence]. rewrite HLn. apply Qsum_le. intros k Hk. apply in_seq in Hk.
      destruct (beta_spec k ltac:(lia)) as [Hb Hb0]. rewrite !(Qmult_comm (beta k)). apply Qmult_le_compat_r; [|exact Hb0].
      rewrite <- Zle_Qle. rewrite Ex, EP. pose proof (movement k _ u Hb ltac:(lia)). pose proof (ups_nonneg u k ltac:(lia) ltac:(lia)). lia. }
    assert (ES : (share u == level u + (Qsum (map (fun k => inject_Z (entry xs u k) * rate k u)%Q (seq 0 d))
                    + Qsum (map (fun k => beta k * inject_Z (entry ups u k))%Q (seq 0 d))))%Q) by (unfold share; rewrite Qsum_plus; reflexivity).
    rewrite ES. clear -IH H1 H2. destruct (cost 1 zero (firstn n xs)), (hit u x); cbn [eadd ele] in *; auto. lra.
  Qed.

  Lemma lazy_ratio_at (c : nat -> Q) : 0 <= T -> (forall k u, (k < d)%nat -> 1 <= u <= T -> (rate k u <= c k * beta k)%Q) ->
    (forall k, (k < d)%nat -> (0 <= c k)%Q) ->
    forall ys, feasible_schedule T (b_bounds p) ys ->
      ele (cost 1 zero xs) (escale (2 * inject_Z (b_d p) + 1 + Qsum (map c (seq 0 d))) (cost 1 zero ys)).
  Proof.
    intros HT Hc Hc0 ys Hys. pose proof HL as ((HZ & HF) & _).
    assert (ET : T = Z.of_nat (length xs)) by lia.
    pose proof (schedule_cost (length xs) ltac:(lia)) as HA. rewrite firstn_all, <- ET in HA.
    eapply ele_trans; [exact HA|]. clear HA.
    pose proof (follow_cost (length xs) ltac:(lia) ys) as HB. rewrite <- ET in HB. specialize (HB Hys).
    assert (HC : forall k, (k < d)%nat -> ele (Fin (beta k * inject_Z (powered k T))) (cost 1 zero ys)).
    { intros k Hk. destruct (beta_spec k Hk) as [Hb _]. apply (powered_cost k _ Hb (Z.to_nat T) T ys eq_refl ltac:(lia) Hys). }
    assert (HD : forall k, (k < d)%nat -> (over (fun u => inject_Z (entry xs u k) * rate k u) 1 T <= (1 + c k) * (beta k * inject_Z (powered k T)))%Q).
    { intros k Hk. destruct (beta_spec k Hk) as [Hb _].
      pose proof (idle_sum k _ Hb (c k) (fun u Hu => Hc k u Hk Hu) (length xs) ltac:(lia)) as H. rewrite <- ET in H. exact H. }
    destruct (cost 1 zero ys) as [C|]; [|exact I]. cbn [escale ele] in *.
    assert (ES : (over share 1 T == over level 1 T + Qsum (map (fun k => over (fun u => inject_Z (entry xs u k) * rate k u)%Q 1 T
                    + beta k * inject_Z (powered k T))%Q (seq 0 d)))%Q).
    { unfold share. rewrite over_plus. apply Qplus_comp; [reflexivity|]. rewrite (over_Qsum (fun k u => (inject_Z (entry xs u k) * rate k u + beta k * inject_Z (entry ups u k))%Q)).
      assert (GE : forall l, (Qsum (map (fun k => over (fun u => (inject_Z (entry xs u k) * rate k u + beta k * inject_Z (entry ups u k))%Q) 1 T) l) ==
         Qsum (map (fun k => over (fun u => inject_Z (entry xs u k) * rate k u)%Q 1 T + beta k * inject_Z (powered k T))%Q l))%Q); [|apply GE].
      induction l as [|k l IH]; [reflexivity|]. cbn [map Qsum]. rewrite IH, over_plus, over_scale.
      assert (GP : (over (fun u => inject_Z (entry ups u k)) 1 T == inject_Z (powered k T))%Q).
      { unfold over, powered. induction (zrange 1 T) as [|s r IHr]; [reflexivity|]. cbn [map Qsum]. rewrite IHr.
        change (zsum (entry ups s k :: map (fun s0 => entry ups s0 k) r)) with (entry ups s k + zsum (map (fun s0 => entry ups s0 k) r)).
        rewrite inject_Z_plus. reflexivity. }
      rewrite GP. reflexivity. }
    rewrite ES.
    assert (GK : (Qsum (map (fun k => over (fun u => inject_Z (entry xs u k) * rate k u)%Q 1 T + beta k * inject_Z (powered k T))%Q (seq 0 d))
                  <= Qsum (map (fun k => 2 * C + C * c k)%Q (seq 0 d)))%Q).
    { apply Qsum_le. intros k Hk. apply in_seq in Hk. specialize (HC k ltac:(lia)). specialize (HD k ltac:(lia)). specialize (Hc0 k ltac:(lia)).
      assert ((1 + c k) * (beta k * inject_Z (powered k T)) <= (1 + c k) * C)%Q.
      { rewrite !(Qmult_comm (1 + c k)). apply Qmult_le_compat_r; [exact HC|lra]. }
      lra. }
    rewrite (Qsum_plus (fun _ => 2 * C)%Q (fun k => C * c k)%Q), (Qsum_scale C c) in GK.
    assert (GC : (Qsum (map (fun _ : nat => 2 * C) (seq 0 d)) == 2 * C * inject_Z (b_d p))%Q).
    { pose proof (d_pos minimize p T HI) as Hd. rewrite <- (Z2Nat.id (b_d p)) at 2 by lia. clear. generalize (Z.to_nat (b_d p)) as n. generalize 0%nat as a.
      intros a n. revert a. induction n as [|n IH]; intros a; [cbn [seq map Qsum]; change (inject_Z (Z.of_nat 0)) with 0%Q; lra|].
      cbn [seq map Qsum]. rewrite IH. rewrite Nat2Z.inj_succ. unfold Z.succ. rewrite inject_Z_plus. change (inject_Z 1) with 1%Q. lra. }
    rewrite GC in GK. lra.
  Qed.
End Ratio.
