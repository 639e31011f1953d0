(** Proofs about the competitive ratio of lazy budgeting for SBLO: hitting costs of convex
    servers with best assignments. *)
From Coq Require Import Lia Lqa Setoid.
From Verif Require Import NumLemmas ObjectiveSpec CostSpec CostProofs ConvertProofs ConvertObjective VerifySpec LoadProofs LoadObjective
  BudgetSpec BudgetProofs BalancedSearch OfflineModel OfflineSpec OfflineProofs OfflineLoads OfflineApprox
  BalancedModel BalancedSpec BalancedProofs BalancedSlots BalancedCount BalancedRatioSpec BalancedRatio.
From Verif Require Import ProblemModel CostModel.
Local Open Scope Z_scope.

Lemma certain_mean (f : cost_fn Q unit dc_failure) t l c : call_certain f t l = Ok c ->
  exists c', call_mean unit_vmerge f t l = Ok c' /\ eeq (c_cost c') (c_cost c).
Proof.
  rewrite call_certain_pred, call_mean_pred. destruct (call_predictive f t l) as [[|a [|b r]]| |]; cbn [obind]; intros H; try discriminate.
  assert (a = c) by congruence. subst a. pose proof (cost_mean_single unit_vmerge c) as HM.
  destruct (cost_mean unit_vmerge [c]) as [c'| |]; cbn [outcome_rel] in HM; try contradiction. exists c'. split; [reflexivity|apply HM].
Qed.

(** Cost of [i] servers of type [k] with load [q]. *)
Definition part (p : gsblo Z) (t : Z) (k : nat) (i : Z) (q : Q) : ext :=
  if 0 <? i then escale (inject_Z i) (server_cost p k t (q / inject_Z i))
  else if Qltb 0 q then Inf else Fin 0.

(** Load given to type [k]. *)
Definition portion (zs : list Q) (d : nat) (L : Q) (k : nat) : Q :=
  match select_loads (mkFractions zs d 1) [L] k with Ok [q] => q | _ => 0%Q end.

Lemma portion_spec zs d L k : (0 < d)%nat -> distribution d zs -> (0 <= L)%Q -> (k < d)%nat ->
  select_loads (mkFractions zs d 1) [L] k = Ok [portion zs d L k] /\ (0 <= portion zs d L k)%Q.
Proof.
  intros Hd Hz HL Hk. destruct (selected_nonneg zs d L k Hd Hz HL Hk) as (q & E & Hq). unfold portion. rewrite E. split; [reflexivity|exact Hq].
Qed.

Lemma inject_pos i : (0 < i) -> (0 < inject_Z i)%Q.
Proof. intros H. change 0%Q with (inject_Z 0). rewrite <- Zlt_Qlt. exact H. Qed.
Lemma inject_nonneg i : (0 <= i) -> (0 <= inject_Z i)%Q.
Proof. intros H. change 0%Q with (inject_Z 0). rewrite <- Zle_Qle. exact H. Qed.

Lemma esum_ele vs ws : Forall2 ele vs ws -> ele (esum vs) (esum ws).
Proof. induction 1 as [|v w vs ws H _ IH]; [cbn; lra|]. cbn [esum fold_right]. apply eadd_mono; assumption. Qed.
Lemma esum_map_ele {A} (f g : A -> ext) l : (forall a, In a l -> ele (f a) (g a)) -> ele (esum (map f l)) (esum (map g l)).
Proof.
  induction l as [|a l IH]; intros H; [cbn; lra|]. cbn [map esum fold_right]. apply eadd_mono; [apply H; left; reflexivity|].
  apply IH. intros; apply H; right; assumption.
Qed.
Lemma esum_map_eeq {A} (f g : A -> ext) l : (forall a, In a l -> eeq (f a) (g a)) -> eeq (esum (map f l)) (esum (map g l)).
Proof.
  intros H. apply ele_antisym; apply esum_map_ele; intros a Ha; apply eeq_ele; [|apply eeq_sym]; auto.
Qed.
Lemma esum_map_eadd {A} (f g : A -> ext) l : eeq (esum (map (fun a => eadd (f a) (g a)) l)) (eadd (esum (map f l)) (esum (map g l))).
Proof.
  induction l as [|a l IH]; [cbn; lra|]. cbn [map]. unfold esum. cbn [fold_right]. fold (esum (map (fun a => eadd (f a) (g a)) l)) (esum (map f l)) (esum (map g l)).
  rewrite IH. destruct (f a), (g a), (esum (map f l)), (esum (map g l)); cbn; auto. lra.
Qed.
Lemma esum_map_Fin {A} (f : A -> Q) l : eeq (esum (map (fun a => Fin (f a)) l)) (Fin (Qsum (map f l))).
Proof.
  induction l as [|a l IH]; [reflexivity|]. cbn [map]. unfold esum. cbn [fold_right]. fold (esum (map (fun a => Fin (f a)) l)).
  rewrite IH. reflexivity.
Qed.
Lemma esum_map_escale {A} r (f : A -> ext) l : eeq (esum (map (fun a => escale r (f a)) l)) (escale r (esum (map f l))).
Proof.
  induction l as [|a l IH]; [cbn; lra|]. cbn [map]. unfold esum. cbn [fold_right]. fold (esum (map (fun a => escale r (f a)) l)) (esum (map f l)).
  rewrite IH. destruct (f a), (esum (map f l)); cbn; auto. lra.
Qed.
Lemma esum_entry (f : nat -> ext) k n : (forall j, (j < n)%nat -> ele (Fin 0) (f j)) -> (k < n)%nat -> ele (f k) (esum (map f (seq 0 n))).
Proof.
  intros H0 Hk. assert (G : forall l, (forall j, In j l -> ele (Fin 0) (f j)) -> In k l -> ele (f k) (esum (map f l))).
  { induction l as [|a l IH]; intros HN Hin; [destruct Hin|]. cbn [map]. unfold esum. cbn [fold_right]. fold (esum (map f l)).
    assert (HE : ele (Fin 0) (esum (map f l))).
    { apply esum_nonneg. apply Forall_forall. intros e He. apply in_map_iff in He as (j & <- & Hj). apply HN. right. exact Hj. }
    pose proof (HN a (or_introl eq_refl)) as Ha. destruct Hin as [->|Hin].
    - destruct (f k), (esum (map f l)); cbn in *; auto. lra.
    - specialize (IH (fun j Hj => HN j (or_intror Hj)) Hin). destruct (f a), (esum (map f l)), (f k); cbn in *; auto; try contradiction. lra. }
  apply G; [intros j Hj; apply in_seq in Hj; apply H0; lia|apply in_seq; lia].
Qed.

Section Convex.
  Variable p : gsblo Z.
  Hypothesis Hd : 0 < b_d p.
  Hypothesis Hlen : Z.of_nat (length (b_cost p)) = b_d p.
  Hypothesis HC : convex_servers p.
  Notation d := (Z.to_nat (b_d p)).
  Variable t : Z.
  Hypothesis Ht : 1 <= t <= b_tend p.
  Notation sc := (server_cost p).

  Lemma cost_eq_load k l l' : (k < d)%nat -> (0 <= l)%Q -> (l == l')%Q -> eeq (sc k t l) (sc k t l').
  Proof using HC Ht. clear Hd Hlen. intros Hk Hl E. apply ele_antisym; apply (cs_increasing p HC); lia || lra. Qed.

  Lemma idle_value k : (k < d)%nat -> idle p k t = Fin (rate p k t).
  Proof using HC Ht. clear Hd Hlen.
    intros Hk. pose proof (cs_idle p HC k t ltac:(lia) Ht) as H. change (sc k t 0) with (idle p k t) in H. unfold rate.
    destruct (idle p k t); [reflexivity|contradiction].
  Qed.
  Lemma rate_idle k : (k < d)%nat -> sc k t 0 = Fin (rate p k t) /\ (0 <= rate p k t)%Q.
  Proof using HC Ht. clear Hd Hlen.
    intros Hk. pose proof (idle_value k Hk) as E. change (idle p k t) with (sc k t 0) in E. split; [exact E|].
    pose proof (cs_nonneg p HC k t 0 ltac:(lia) Ht ltac:(lra)) as H. rewrite E in H. exact H.
  Qed.

  Lemma part_nonneg k i q : (k < d)%nat -> (0 <= q)%Q -> ele (Fin 0) (part p t k i q).
  Proof using HC Ht. clear Hd Hlen.
    intros Hk Hq. unfold part. destruct (0 <? i) eqn:Ei.
    - assert (Hi : (0 < inject_Z i)%Q) by (apply inject_pos; lia).
      pose proof (cs_nonneg p HC k t (q / inject_Z i) ltac:(lia) Ht ltac:(apply Qle_shift_div_l; lra)) as H.
      destruct (sc k t (q / inject_Z i)); cbn in *; auto. apply Qmult_le_0_compat; lra.
    - destruct (Qltb 0 q); cbn; auto. lra.
  Qed.

  Lemma part_low k i q : (k < d)%nat -> 0 <= i -> (0 <= q)%Q -> ele (Fin (inject_Z i * rate p k t)) (part p t k i q).
  Proof using HC Ht. clear Hd Hlen.
    intros Hk Hi Hq. unfold part. destruct (0 <? i) eqn:Ei.
    - assert (Hi' : (0 < inject_Z i)%Q) by (apply inject_pos; lia).
      pose proof (cs_increasing p HC k t 0 (q / inject_Z i) ltac:(lia) Ht ltac:(lra) ltac:(apply Qle_shift_div_l; lra)) as H.
      rewrite (proj1 (rate_idle k Hk)) in H. destruct (sc k t (q / inject_Z i)); cbn in *; auto.
      rewrite !(Qmult_comm (inject_Z i)). apply Qmult_le_compat_r; lra.
    - assert (i = 0) as -> by lia. change (inject_Z 0) with 0%Q. destruct (Qltb 0 q); [exact I|cbn [ele]; lra].
  Qed.

  Lemma part_more k i j q : (k < d)%nat -> 0 <= i <= j -> (0 <= q)%Q ->
    ele (part p t k j q) (eadd (part p t k i q) (Fin (inject_Z (j - i) * rate p k t))).
  Proof using HC Ht. clear Hd Hlen.
    intros Hk Hij Hq. destruct (rate_idle k Hk) as [Er Hr]. unfold part. destruct (0 <? i) eqn:Ei.
    - replace (0 <? j) with true by lia.
      assert (Hi : (0 < inject_Z i)%Q) by (apply inject_pos; lia). assert (Hj : (0 < inject_Z j)%Q) by (apply inject_pos; lia).
      assert (Hle : (inject_Z i <= inject_Z j)%Q) by (rewrite <- Zle_Qle; lia).
      assert (Hs : (0 <= inject_Z i / inject_Z j <= 1)%Q) by (split; [apply Qle_shift_div_l; lra|apply Qle_shift_div_r; lra]).
      pose proof (cs_convex p HC k t 0 (q / inject_Z i) (inject_Z i / inject_Z j) ltac:(lia) Ht ltac:(lra) ltac:(apply Qle_shift_div_l; lra) Hs) as H.
      rewrite (cost_eq_load k _ (q / inject_Z j)) in H; [|exact Hk| |field; split; lra].
      2:{ assert (0 <= q / inject_Z i)%Q by (apply Qle_shift_div_l; lra). pose proof (Qmult_le_0_compat _ _ (proj1 Hs) H0). lra. }
      rewrite Er in H. unfold Z.sub. rewrite inject_Z_plus, inject_Z_opp.
      destruct (sc k t (q / inject_Z j)) as [a|], (sc k t (q / inject_Z i)) as [b|]; cbn [escale eadd ele] in *; auto.
      assert (H2 : (inject_Z j * a <= inject_Z j * ((1 - inject_Z i / inject_Z j) * rate p k t + inject_Z i / inject_Z j * b))%Q)
        by (rewrite !(Qmult_comm (inject_Z j)); apply Qmult_le_compat_r; lra).
      setoid_replace (inject_Z j * ((1 - inject_Z i / inject_Z j) * rate p k t + inject_Z i / inject_Z j * b))%Q
        with ((inject_Z j - inject_Z i) * rate p k t + inject_Z i * b)%Q in H2 by (field; lra). lra.
    - assert (i = 0) as -> by lia. replace (j - 0) with j by lia. destruct (Qltb 0 q) eqn:Eq; [destruct (if 0 <? j then _ else _); exact I|].
      apply Qltb_false in Eq. destruct (0 <? j) eqn:Ej; [|assert (j = 0) as -> by lia; change (inject_Z 0) with 0%Q; cbn; lra].
      assert (Hj : (0 < inject_Z j)%Q) by (apply inject_pos; lia).
      rewrite (escale_eeq (inject_Z j) _ _ (cost_eq_load k (q / inject_Z j) 0 Hk ltac:(apply Qle_shift_div_l; lra)
        ltac:(assert (E : (q == 0)%Q) by lra; rewrite E; field; lra))).
      rewrite Er. cbn. lra.
  Qed.

  (** The objective is the sum of these parts. *)
  Lemma objective_parts x zs L : Z.of_nat (length x) = b_d p -> Forall (fun j => 0 <= j) x -> distribution d zs -> (0 <= L)%Q ->
    exists o, objective_value (sblo_objective valZ p t x [L] (mkFractions zs d 1)) = Some o /\
      eeq o (esum (map (fun k => part p t k (nth k x 0) (portion zs d L k)) (seq 0 d))).
  Proof.
    intros Hx Hx0 Hz HL. unfold sblo_objective. rewrite Hx, Z.eqb_refl. cbn [negb]. apply sum_first_value.
    assert (G : forall ks, (forall k, In k ks -> (k < d)%nat) ->
      Forall2 (fun m e => exists o, objective_value m = Some o /\ eeq o e)
       (map (fun k => do loads <- select_loads (mkFractions zs d 1) [L] k;
           do total_load <- from_option (nth_error loads 0);
           do xk <- from_option (nth_error x k);
           rbind (safe_balancing (v_toQ valZ xk) total_load
                    (do f <- from_option (nth_error (b_cost p) k);
                     do c <- call_mean unit_vmerge f t (total_load / v_toQ valZ xk)%Q;
                     Ok (ROk (escale (v_toQ valZ xk) (c_cost c)))))
                 (fun e => Ok (ROk (e, Fin 0)))) ks)
       (map (fun k => part p t k (nth k x 0) (portion zs d L k)) ks)).
    2:{ apply G. intros k Hk. apply in_seq in Hk. lia. }
    induction ks as [|k ks IH]; intros Hks; cbn [map]; constructor; [|apply IH; intros; apply Hks; right; assumption].
    assert (Hk : (k < d)%nat) by (apply Hks; left; reflexivity).
    destruct (portion_spec zs d L k ltac:(lia) Hz HL Hk) as [-> Hq]. cbn [obind nth_error from_option].
    destruct (nth_error x k) as [i|] eqn:Ei; [|apply nth_error_None in Ei; lia].
    cbn [from_option obind valZ v_toQ]. rewrite (nth_error_nth _ _ 0 Ei).
    assert (Hi : 0 <= i) by (rewrite Forall_forall in Hx0; eapply Hx0, nth_error_In, Ei).
    unfold safe_balancing, part. destruct (0 <? i) eqn:E0.
    - assert (HI : (0 < inject_Z i)%Q) by (apply inject_pos; lia). rewrite (proj2 (Qltb_iff _ _) HI).
      unfold server_cost. destruct (nth_error (b_cost p) k) as [f|] eqn:Ef; [|apply nth_error_None in Ef; lia].
      cbn [from_option obind].
      destruct (cs_known p HC k f t (portion zs d L k / inject_Z i)%Q Ef Ht ltac:(apply Qle_shift_div_l; lra)) as (c & Hc).
      destruct (certain_mean f t _ c Hc) as (c' & Hc' & Ec). rewrite Hc', Hc. cbn [obind rbind]. eexists. split; [reflexivity|].
      unfold obj_total. cbn [fst snd]. rewrite (escale_eeq _ _ _ Ec). apply eadd_0_r.
    - assert (i = 0) as -> by lia. change (Qltb 0 (inject_Z 0)) with false. cbv iota.
      destruct (Qltb 0 (portion zs d L k)) eqn:Eq.
      + cbn [rbind obind objective_value]. exists Inf. split; [reflexivity|exact I].
      + apply Qltb_false in Eq. replace (Qeq_bool (portion zs d L k) 0) with true by (symmetry; apply Qeq_bool_iff; lra).
        cbn [rbind obind objective_value]. eexists. split; [reflexivity|]. cbn. lra.
  Qed.
End Convex.

Section Best.
  Variable minimize :
    (list Q -> outcome ext) -> list (Q * Q) -> list Q -> list (list Q -> outcome Q) -> option (list Q * ext).
  Variable p : gsblo Z.
  Hypothesis HI : balanced_instance minimize p (b_tend p).
  Hypothesis HC : convex_servers p.
  Hypothesis HB : assigns_best minimize p.
  Notation d := (Z.to_nat (b_d p)).
  Notation hit := (hitting minimize p).
  Notation feasible := (feasible_config (b_bounds p)).

  Definition load (t : Z) : Q := match access (b_load p) t with Some l => inject_Z l | None => 0%Q end.
  Definition total_value (t : Z) (x : list Z) (zs : list Q) : ext :=
    esum (map (fun k => part p t k (nth k x 0) (portion zs d (load t) k)) (seq 0 d)).

  Lemma best_dims : 0 < b_d p /\ Z.of_nat (length (b_cost p)) = b_d p /\ Z.of_nat (length (b_bounds p)) = b_d p.
  Proof. destruct (bi_form _ _ _ HI) as (Hd & _ & HLb & HLs & _). pose proof (bi_costs _ _ _ HI). auto. Qed.

  Lemma load_spec t : 1 <= t <= b_tend p -> exists l, access (b_load p) t = Some l /\ load t = inject_Z l /\ (0 <= load t)%Q.
  Proof.
    intros Ht. destruct (bi_loads _ _ _ HI) as [HL1 HL2]. destruct (access (b_load p) t) as [l|] eqn:El.
    - exists l. unfold load. rewrite El. repeat split. apply (HL2 t l Ht El).
    - exfalso. unfold access in El. destruct ((1 <=? t) && (t <=? Z.of_nat (length (b_load p))))%bool eqn:E; [apply nth_error_None in El|]; lia.
  Qed.

  (** The hitting cost is the least value. *)
  Lemma hit_best t x : 1 <= t <= b_tend p -> feasible x ->
    (exists zs, distribution d zs /\ (exists us, zs = map apply_precision us) /\ eeq (hit t x) (total_value t x zs)) /\
    (forall zs us, distribution d zs -> zs = map apply_precision us -> ele (hit t x) (total_value t x zs)).
  Proof.
    intros Ht Hx. destruct best_dims as (Hd & Hlc & Hlb). destruct (load_spec t Ht) as (l & El & ELd & HL0).
    destruct (bi_hit _ _ _ HI t x Ht Hx) as (c & Hc).
    assert (Eh : hit t x = c_cost c) by (unfold hitting; rewrite Hc; reflexivity).
    assert (Hlx : length x = d) by (rewrite (feasible_length _ _ Hx); lia).
    assert (Hx0 : Forall (fun j => 0 <= j) x) by (clear -Hx; induction Hx; constructor; auto; lia).
    destruct (HB t x l c Ht Hx El Hc) as [(us & o & Ha & Ho & Eo) Hmin]. unfold new_fractions in *. rewrite Hlx in *. rewrite <- ELd in *.
    split.
    - exists (map apply_precision us). split; [exact Ha|]. split; [exists us; reflexivity|].
      destruct (objective_parts p Hd Hlc HC t Ht x _ (load t) ltac:(lia) Hx0 Ha HL0) as (o' & Ho' & Eo').
      assert (o' = o) by congruence. subst o'. rewrite Eh, <- Eo. exact Eo'.
    - intros zs vs Hz ->. destruct (objective_parts p Hd Hlc HC t Ht x _ (load t) ltac:(lia) Hx0 Hz HL0) as (o' & Ho' & Eo').
      rewrite Eh. eapply ele_trans; [apply (Hmin vs o' Hz Ho')|]. apply eeq_ele. exact Eo'.
  Qed.

  Lemma hit_low t x k : (k < d)%nat -> 1 <= t <= b_tend p -> feasible x -> ele (Fin (inject_Z (nth k x 0%Z) * rate p k t)) (hit t x).
  Proof.
    intros Hk Ht Hx. destruct best_dims as (Hd & Hlc & Hlb). destruct (load_spec t Ht) as (l & El & ELd & HL0).
    destruct (hit_best t x Ht Hx) as [(zs & Hz & _ & ->) _]. unfold total_value.
    eapply ele_trans; [apply (part_low p HC t Ht k (nth k x 0) (portion zs d (load t) k) Hk)|].
    - apply (fnon p x k Hx).
    - apply portion_spec; auto; lia.
    - apply (esum_entry (fun k => part p t k (nth k x 0) (portion zs d (load t) k))); [|exact Hk].
      intros j Hj. apply part_nonneg; auto. apply portion_spec; auto; lia.
  Qed.

  Lemma hit_more t x y : 1 <= t <= b_tend p -> feasible x -> feasible y -> (forall k, (k < d)%nat -> nth k y 0 <= nth k x 0) ->
    ele (hit t x) (eadd (hit t y) (Fin (Qsum (map (fun k => inject_Z (nth k x 0%Z - nth k y 0%Z) * rate p k t)%Q (seq 0 d))))).
  Proof.
    intros Ht Hx Hy Hle. destruct best_dims as (Hd & Hlc & Hlb). destruct (load_spec t Ht) as (l & El & ELd & HL0).
    destruct (hit_best t y Ht Hy) as [(zs & Hz & (us & Eu) & ->) _]. destruct (hit_best t x Ht Hx) as [_ Hmin].
    eapply ele_trans; [apply (Hmin zs us Hz Eu)|]. unfold total_value. rewrite <- esum_map_Fin, <- esum_map_eadd.
    apply esum_map_ele. intros k Hk. apply in_seq in Hk. apply part_more; auto; try lia.
    - split; [apply (fnon p y k Hy)|apply Hle; lia].
    - apply portion_spec; auto; lia.
  Qed.

  Lemma hit_up t x y : 1 <= t <= b_tend p -> feasible x -> feasible y -> (forall k, (k < d)%nat -> nth k y 0 <= nth k x 0) ->
    ele (hit t x) (eadd (hit t y) (Fin (Qsum (map (fun k => inject_Z (nth k x 0%Z) * rate p k t)%Q (seq 0 d))))).
  Proof.
    intros Ht Hx Hy Hle. destruct best_dims as (Hd & Hlc & Hlb). eapply ele_trans; [apply (hit_more t x y Ht Hx Hy Hle)|]. apply eadd_mono; [apply ele_refl|].
    cbn [ele]. apply Qsum_le. intros k Hk. apply in_seq in Hk. apply Qmult_le_compat_r; [|apply rate_idle; auto; lia].
    rewrite <- Zle_Qle. pose proof (fnon p y k Hy). lia.
  Qed.

  (** *** The ratio of lazy schedules *)
  Lemma lazy_ratio ups xs c : lazy_schedule minimize p (b_tend p) ups xs -> 0 <= b_tend p -> idle_at_most p c ->
    let cost := total_cost hit (switching (b_switching p) false) 1 1 (zero_config (b_d p)) in
    forall ys, feasible_schedule (b_tend p) (b_bounds p) ys ->
      ele (cost xs) (escale (2 * inject_Z (b_d p) + 1 + Qsum c) (cost ys)).
  Proof.
    intros HL HT (Hc1 & Hc2 & Hc3) cost ys Hys. pose proof HL as (_ & _ & _ & HLz).
    destruct (witnesses (target minimize p ups xs) (Z.to_nat (b_tend p))) as (os & Hos1 & Hos2).
    { intros u Hu. destruct (HLz u ltac:(lia)) as (opts & opt & H1 & H2). exists opt, opts. split; assumption. }
    destruct best_dims as (Hd & Hlc & Hlb). destruct (betas minimize p (b_tend p) HI) as (HLn & _).
    assert (EC : map (fun k => nth k c 0%Q) (seq 0 d) = c).
    { replace d with (length c) by lia. apply map_nth_seq. }
    rewrite <- EC.
    apply (lazy_ratio_at minimize p (b_tend p) HI) with (ups := ups) (os := os); auto; try lia.
    - intros k u Hk Hu. rewrite idle_value; auto. exact I.
    - intros k u x Hk Hu Hx. apply hit_low; auto.
    - intros u x y Hu Hx Hy Hle. apply hit_up; auto.
    - intros k u Hk Hu. destruct (nth_error_ex c k) as [a Ha]; [lia|]. destruct (nth_error_ex (b_switching p) k) as [b Hb]; [lia|].
      rewrite (nth_error_nth _ _ 0%Q Ha), (nth_error_nth _ _ 0%Q Hb). pose proof (Hc3 k u a b Ha Hb Hu) as H.
      rewrite (proj1 (rate_idle p HC u Hu k Hk)) in H. exact H.
    - intros k Hk. destruct (nth_error_ex c k) as [a Ha]; [lia|]. rewrite (nth_error_nth _ _ 0%Q Ha).
      rewrite Forall_forall in Hc2. eapply Hc2, nth_error_In, Ha.
  Qed.
End Best.
