(** Proofs about optimisation over a window of time slots. *)
From Coq Require Import Lia Lqa Setoid.
From Verif Require Import NumLemmas HorizonModel HorizonSpec CostSpec CostProofs ObjectiveProofs ConvertProofs
  ConvertObjective StaticProofs CapacityProofs.
From Verif Require Import ProblemModel.
Local Open Scope Z_scope.

Lemma access_firstn {A} (xs : list A) n t : t <= Z.of_nat n -> access (firstn n xs) t = access xs t.
Proof.
  intros H. unfold access. destruct (1 <=? t) eqn:E1; [|reflexivity]. cbn [andb].
  rewrite firstn_length. destruct (t <=? Z.of_nat (length xs)) eqn:E2.
  - rewrite (proj2 (Z.leb_le _ _)) by lia. revert xs E2.
    assert (forall (xs : list A) n i, (i < n)%nat -> nth_error (firstn n xs) i = nth_error xs i) as G.
    { clear. induction xs as [|a xs IH]; intros [|n] [|i] Hi; try reflexivity; try lia. simpl. apply IH. lia. }
    intros xs _. apply G. lia.
  - rewrite (proj2 (Z.leb_gt _ _)) by lia. reflexivity.
Qed.

Lemma objective_firstn {X C D} (merge : C -> C -> C) s (p : oproblem X C D) xs x0 alpha inverted T :
  objective_o merge s p (firstn (Z.to_nat T) xs) x0 alpha inverted T = objective_o merge s p xs x0 alpha inverted T.
Proof.
  unfold objective_o. f_equal. apply omap_ext. intros t Ht. apply zrange_In in Ht.
  unfold get_or. rewrite !access_firstn by lia. reflexivity.
Qed.

Lemma scaled_movement_power : forall sw x prev,
  (scaled_movement (v_toQ valQ) sw x prev false == power_upQ sw prev x)%Q.
Proof.
  induction sw as [|b sw IH]; intros [|j x] [|i prev]; cbn; try reflexivity.
  rewrite (IH x prev). unfold scalar_movement, qpos. cbn.
  destruct (Qle_bool j i) eqn:E1; destruct (Qltb (j - i) 0) eqn:E2; try reflexivity.
  - apply Qle_bool_iff in E1. apply Qltb_false in E2. assert (j - i == 0)%Q as -> by lra. reflexivity.
  - apply Qltb_iff in E2. assert (j <= i)%Q as H by lra. apply Qle_bool_iff in H. rewrite H in E1. discriminate.
Qed.

Lemma within_bounds_box bounds x : within_bounds bounds x <-> in_box valQ bounds x.
Proof. reflexivity. Qed.

Lemma within_bounds_pairs bounds x : within_bounds bounds x <-> in_boxQ (map (fun u => (0%Q, u)) bounds) x.
Proof.
  unfold within_bounds, in_boxQ. revert x. induction bounds as [|u us IH]; intros x; simpl; split; intros H; inversion H; subst; constructor; simpl; auto; apply IH; auto.
Qed.

Lemma in_boxQ_length bs x : in_boxQ bs x -> length x = length bs.
Proof. induction 1; simpl; auto. Qed.

Lemma rows_lengths P bs n xs : rows P bs n xs -> Forall (fun x => Z.of_nat (length x) = Z.of_nat (length bs)) xs.
Proof.
  intros (_ & H & _). eapply Forall_impl; [|exact H]. intros x Hx. rewrite (in_boxQ_length _ _ Hx). reflexivity.
Qed.

Lemma rows_from_raw P bs n xs : rows P bs n xs ->
  from_raw (Z.of_nat (length bs)) (Z.of_nat n) (concat xs) = Ok xs.
Proof.
  intros H. pose proof (rows_lengths _ _ _ _ H) as HL. destruct H as [<- _].
  apply (from_raw_flatten (Z.of_nat (length bs)) xs); [lia|exact HL].
Qed.

Lemma firstn_In {A} (n : nat) (l : list A) x : In x (firstn n l) -> In x l.
Proof. intros H. rewrite <- (firstn_skipn n l). apply in_or_app. left. exact H. Qed.

(** Slices of a vector written row by row. *)
Lemma slice_ok {A} (l : list A) a n : 0 <= a -> 0 <= n -> a + n <= Z.of_nat (length l) ->
  slice l a n = Ok (firstn (Z.to_nat n) (skipn (Z.to_nat a) l)).
Proof.
  intros. unfold slice. rewrite (proj2 (Z.leb_le 0 a)), (proj2 (Z.leb_le 0 n)), (proj2 (Z.leb_le (a + n) _)) by lia.
  reflexivity.
Qed.

Lemma skipn_concat d (xs : list (list Q)) i x : Forall (fun x => length x = d) xs ->
  nth_error xs i = Some x -> (d * i + d <= length (concat xs))%nat /\ firstn d (skipn (d * i) (concat xs)) = x.
Proof.
  revert i. induction xs as [|y xs IH]; intros i H Hi; [destruct i; discriminate|].
  inversion H as [|? ? Hy Hxs]; subst. simpl concat. rewrite app_length. destruct i as [|i].
  - injection Hi as ->. rewrite Nat.mul_0_r. simpl. split; [lia|].
    rewrite firstn_app, firstn_all, Nat.sub_diag. simpl. apply app_nil_r.
  - simpl in Hi. destruct (IH i Hxs Hi) as [L E]. split; [lia|]. rewrite skipn_app.
    rewrite skipn_all2 by lia. simpl. rewrite <- E. f_equal. f_equal. lia.
Qed.

Lemma slice_concat d (xs : list (list Q)) i x : 0 <= d -> Forall (fun x => Z.of_nat (length x) = d) xs ->
  nth_error xs i = Some x -> slice (concat xs) (d * Z.of_nat i) d = Ok x.
Proof.
  intros Hd H Hi. assert (Forall (fun x => length x = Z.to_nat d) xs) as H'.
  { eapply Forall_impl; [|exact H]. simpl. intros; lia. }
  destruct (skipn_concat _ _ _ _ H' Hi) as [L E]. rewrite slice_ok by nia. rewrite <- E. f_equal. f_equal. f_equal. nia.
Qed.

Lemma firstn_nth {A} (xs : list A) n i : (i < n)%nat -> nth_error (firstn n xs) i = nth_error xs i.
Proof.
  revert n i. induction xs as [|a xs IH]; intros [|n] [|i] Hi; try reflexivity; try lia. simpl. apply IH. lia.
Qed.

(** ** Costs and instances *)
Section Horizon.
  Context {C D : Type}.
  Variable vmerge : C -> C -> outcome C.
  Variable merge : C -> C -> C.
  Variable outside : D.
  Variable sched : list Q -> split.
  Variable minimize : (list Q -> outcome ext) -> list (Q * Q) -> list (list Q -> outcome Q) -> outcome (list Q).
  Variable p : gssco Q C D.
  Variable hit : Z -> list Q -> ext.

  Hypothesis Hd : g_d p = Z.of_nat (length (g_bounds p)).
  Hypothesis Hsw : length (g_switching p) = length (g_bounds p).
  Hypothesis Hbounds : Forall (fun u => (0 <= u)%Q) (g_bounds p).
  Hypothesis Hcost : forall s x, 1 <= s <= g_tend p -> within_bounds (g_bounds p) x ->
    exists o, call_predictive (g_cost p) s x = Ok [mkCost (hit s x) o].
  Variable P : list Q -> Prop.
  Variable tol : Q.
  Hypothesis HPzero : P (repeat 0%Q (length (g_bounds p))).

  Let pairs := map (fun u => (0%Q, u)) (g_bounds p).

  Lemma hc_bounds_spec w : 0 <= w -> hc_bounds p w = Ok (concat (repeat pairs (Z.to_nat (w + 1)))).
  Proof.
    intros Hw. unfold hc_bounds. rewrite (proj2 (Z.ltb_ge (g_d p) 0)) by lia.
    assert (forall us k, (forall i, nth_error us i = nth_error (g_bounds p) (k + i)) ->
      omap (fun k => do b <- from_option (nth_error (g_bounds p) k); Ok (0%Q, b)) (seq k (length us)) =
      Ok (map (fun u => (0%Q, u)) us)) as G.
    { induction us as [|u us IH]; intros k Hk; [reflexivity|]. cbn [length seq omap].
      rewrite <- (Nat.add_0_r k) at 1. rewrite <- Hk. cbn [nth_error from_option obind].
      rewrite IH; [reflexivity|]. intros i. specialize (Hk (S i)). cbn [nth_error] in Hk. rewrite Hk. f_equal. lia. }
    rewrite Hd, Nat2Z.id, (G (g_bounds p) 0%nat) by reflexivity. fold pairs.
    assert (forall n k, omap (fun _ : nat => Ok pairs) (seq k n) = Ok (repeat pairs n)) as G2.
    { induction n as [|n IH]; intros k; [reflexivity|]. cbn [seq omap obind]. rewrite IH. reflexivity. }
    rewrite G2. reflexivity.
  Qed.

  Lemma reset_hit s0 t x : 1 <= t <= g_tend p - s0 -> within_bounds (g_bounds p) x ->
    exists c, gssco_hit valQ vmerge outside (ssco_reset p s0) t x = Ok c /\
      eeq (c_cost c) (hit_from_1 hit (t + s0) x).
  Proof.
    intros Ht Hx. unfold gssco_hit, call_mean_within. cbn [ssco_reset g_bounds g_cost].
    assert (length x = length (g_bounds p)) as HL.
    { symmetry. clear - Hx. induction Hx; simpl; auto. }
    destruct (within_upper_spec valQ (g_bounds p) x (Qeq_refl 0) HL) as (b & -> & Hb).
    assert (b = true) as -> by (apply Hb; exact Hx). cbn [obind].
    rewrite call_mean_of_predictive, reset_predictive by lia.
    unfold hit_from_1. destruct (t + s0 <? 1) eqn:E.
    - rewrite (proj2 (Z.leb_gt 1 _)) by lia. cbn [obind].
      destruct (cost_mean_single vmerge (@cost_default C D)) ; unfold cost_mean; cbn.
      eexists; split; [reflexivity|]. reflexivity.
    - rewrite (proj2 (Z.leb_le 1 _)) by lia. destruct (Hcost (s0 + t) x) as (o & Ho); [lia|exact Hx|].
      rewrite Ho. cbn [obind length Nat.eqb negb]. rewrite andb_false_r. cbn [obind].
      pose proof (cost_mean_single vmerge (mkCost (hit (s0 + t) x) o)) as HM.
      destruct (cost_mean vmerge [mkCost (hit (s0 + t) x) o]) as [c| |]; try contradiction.
      destruct HM as [HM _]. exists c. split; [reflexivity|]. cbn [c_cost] in HM. rewrite HM.
      rewrite Z.add_comm. reflexivity.
  Qed.

  (** The objective handed to the optimiser is the cost of the plan. *)
  Lemma hc_objective_spec w a prev xs : 0 <= w -> length prev = length (g_bounds p) ->
    0 <= g_tend p - a + 1 <= w + 1 -> rows P pairs (Z.to_nat (w + 1)) xs ->
    exists c, hc_objective vmerge merge outside sched p w a prev (concat xs) = Ok c /\
      eeq c (plan_cost hit (g_switching p) a prev (firstn (Z.to_nat (g_tend p - a + 1)) xs)).
  Proof.
    intros Hw Hp HT Hr. unfold hc_objective.
    pose proof (rows_from_raw _ _ _ _ Hr) as HF. unfold pairs in HF at 1. rewrite map_length, <- Hd in HF.
    rewrite Z2Nat.id in HF by lia. rewrite HF. cbn [obind].
    set (q := gssco_problem valQ vmerge outside (ssco_reset p (a - 1))).
    destruct Hr as (HL & HB & _).
    assert (forall x, In x xs -> within_bounds (g_bounds p) x) as HW.
    { intros x Hx. apply within_bounds_pairs. rewrite Forall_forall in HB. apply HB. exact Hx. }
    assert (forall x, In x xs -> length x = length (g_bounds p)) as HLx.
    { intros x Hx. specialize (HW x Hx). clear - HW. induction HW; simpl; auto. }
    assert (op_tend q = g_tend p - a + 1) as ET by (unfold q; simpl; lia).
    rewrite <- objective_firstn.
    destruct (objective_along merge q (fun t => hit_from_1 hit (t + (a - 1))) (power_upQ (g_switching p)) prev 1 false
                (sched (concat xs)) (firstn (Z.to_nat (g_tend (ssco_reset p (a - 1)))) xs)) as (c & H1 & H2).
    - rewrite firstn_length. unfold q. cbn [gssco_problem op_tend ssco_reset g_tend]. lia.
    - intros t x Ht Hx. apply firstn_In in Hx. unfold q. cbn [gssco_problem op_hit].
      apply reset_hit; [lia|auto].
    - intros x y Hx Hy. apply firstn_In in Hy. unfold q. cbn [gssco_problem op_move]. unfold gssco_move. cbn [ssco_reset g_switching].
      rewrite scaled_movement_o_total.
      + eexists. split; [reflexivity|]. apply scaled_movement_power.
      + rewrite (HLx _ Hy). destruct Hx as [-> | Hx]; [exact Hp|]. apply firstn_In in Hx. auto.
      + rewrite (HLx _ Hy). exact Hsw.
    - fold q. change (g_tend (ssco_reset p (a - 1))) with (op_tend q) at 2. rewrite H1. cbn [obind].
      exists (c_cost c). split; [reflexivity|]. rewrite H2. unfold plan_cost.
      rewrite (total_cost_shift (hit_from_1 hit)). replace (1 + (a - 1)) with a by lia.
      change (g_tend (ssco_reset p (a - 1))) with (op_tend q). rewrite ET. reflexivity.
  Qed.

  Lemma zero_row : in_boxQ pairs (gzero valQ (g_d p)).
  Proof.
    unfold pairs, gzero. rewrite Hd, Nat2Z.id. cbn [v_zero valQ].
    assert (forall us, Forall (fun u => (0 <= u)%Q) us -> in_boxQ (map (fun u => (0%Q, u)) us) (repeat 0%Q (length us))) as G.
    { induction 1 as [|u us Hu _ IH]; simpl; constructor; auto. simpl. split; [lra|exact Hu]. }
    apply G. exact Hbounds.
  Qed.

  (** One call of [next]. *)
  Lemma hc_next_spec k w t prev :
    0 <= w -> 1 <= k <= w + 1 -> t <= g_tend p <= t + k - 1 -> length prev = length (g_bounds p) ->
    solves P tol minimize pairs (Z.to_nat (w + 1))
      (fun xs => plan_cost hit (g_switching p) (t + k - (w + 1)) prev
                   (firstn (Z.to_nat (g_tend p - (t + k - (w + 1)) + 1)) xs)) [] ->
    exists ys x0 x, hc_next vmerge merge outside sched minimize k p w t prev = Ok (x0, x) /\
      optimal_plan hit (g_switching p) (g_bounds p) P (t + k - (w + 1)) (g_tend p) prev ys /\
      nth_error ys 0 = Some x0 /\ nth_error ys (Z.to_nat (w + 1 - k)) = Some x.
  Proof.
    intros Hw Hk HT Hp HS. set (a := t + k - (w + 1)) in *. set (n := Z.to_nat (g_tend p - a + 1)) in *.
    destruct (HS (hc_objective vmerge merge outside sched p w a prev) []) as (r & H1 & H2 & _ & H3).
    { intros xs Hxs. apply hc_objective_spec; auto. unfold a. lia. }
    { constructor. }
    exists (firstn n r). pose proof (rows_lengths _ _ _ _ H2) as HL. destruct H2 as (HN & HB & HPr).
    assert (length (firstn n r) = n) as Hn by (rewrite firstn_length; unfold n, a; lia).
    destruct (nth_error r 0) as [x0|] eqn:E0; [|apply nth_error_None in E0; lia].
    destruct (nth_error r (Z.to_nat (w + 1 - k))) as [x|] eqn:E1; [|apply nth_error_None in E1; lia].
    exists x0, x. split; [|split; [|split]].
    - unfold hc_next. rewrite (proj2 (Z.leb_le 1 k)), (proj2 (Z.leb_le k (w + 1))) by lia. cbn [andb].
      rewrite (hc_bounds_spec w Hw). cbn [obind]. fold a. rewrite H1. cbn [obind].
      unfold pairs in HL. rewrite map_length, <- Hd in HL.
      pose proof (slice_concat (g_d p) r 0 x0 ltac:(lia) HL E0) as S0. rewrite Z.mul_0_r in S0. rewrite S0. cbn [obind].
      replace (t - a) with (Z.of_nat (Z.to_nat (w + 1 - k))) by (unfold a; lia).
      rewrite (slice_concat (g_d p) r _ x ltac:(lia) HL E1). reflexivity.
    - split; [split; [|split]|].
      + rewrite Hn. unfold n, a. lia.
      + apply Forall_forall. intros y Hy. apply firstn_In in Hy. apply within_bounds_pairs.
        rewrite Forall_forall in HB. auto.
      + apply Forall_forall. intros y Hy. apply firstn_In in Hy. rewrite Forall_forall in HPr. auto.
      + intros zs HLz HWz HPz.
        set (zs' := zs ++ repeat (gzero valQ (g_d p)) (Z.to_nat (w + 1) - length zs)).
        assert (firstn n zs' = zs) as EZ.
        { unfold zs'. replace n with (length zs) by (unfold n; lia). rewrite firstn_app, firstn_all, Nat.sub_diag.
          simpl. apply app_nil_r. }
        specialize (H3 zs'). rewrite EZ in H3. apply H3; [|constructor]. split; [|split].
        * unfold zs'. rewrite app_length, repeat_length. unfold a in HLz. lia.
        * unfold zs'. apply Forall_app. split.
          -- eapply Forall_impl; [|exact HWz]. intros y Hy. apply within_bounds_pairs. exact Hy.
          -- apply Forall_forall. intros y Hy. apply repeat_spec in Hy. subst y. apply zero_row.
        * unfold zs'. apply Forall_app. split; [exact HPz|]. apply Forall_forall. intros y Hy. apply repeat_spec in Hy. subst y.
          unfold gzero. rewrite Hd, Nat2Z.id. exact HPzero.
    - pose proof (firstn_nth r n 0) as G. rewrite G; auto. unfold n, a. lia.
    - rewrite (firstn_nth r n); auto. unfold n, a. lia.
  Qed.
End Horizon.

(** ** Averaging *)
Lemma config_plus_nth x y i : length x = length y -> (nth i (config_plus x y) 0 == nth i x 0 + nth i y 0)%Q.
Proof.
  revert y i. induction x as [|a x IH]; intros [|b y] i H; try discriminate; cbn.
  - destruct i; lra.
  - destruct i as [|i]; [reflexivity|]. apply (IH y i). simpl in H. lia.
Qed.

Lemma config_plus_length x y : length x = length y -> length (config_plus x y) = length x.
Proof. intros H. unfold config_plus. rewrite map_length, combine_length. lia. Qed.

Lemma fold_config_plus d ls : forall x, length x = d -> Forall (fun y => length y = d) ls ->
  length (fold_left config_plus ls x) = d /\
  forall i, (nth i (fold_left config_plus ls x) 0 == nth i x 0 + fold_right Qplus 0 (map (fun y => nth i y 0) ls))%Q.
Proof.
  induction ls as [|y ls IH]; intros x Hx H.
  - split; [exact Hx|]. intros i. cbn. lra.
  - inversion H as [|? ? Hy Hls]; subst. cbn [fold_left map fold_right].
    assert (length (config_plus x y) = length x) as E by (apply config_plus_length; congruence).
    destruct (IH (config_plus x y) E Hls) as [H1 H2].
    split; [exact H1|]. intros i. rewrite H2, config_plus_nth by congruence. lra.
Qed.

Lemma sum_within us i u xs : nth_error us i = Some u -> Forall (within_bounds us) xs ->
  (0 <= fold_right Qplus 0 (map (fun y => nth i y 0) xs) <= u * inject_Z (Z.of_nat (length xs)))%Q.
Proof.
  intros Hu. induction 1 as [|x xs Hx _ IH].
  - cbn. change (inject_Z 0) with 0%Q. rewrite Qmult_0_r. lra.
  - cbn [map fold_right length]. rewrite Nat2Z.inj_succ. unfold Z.succ. rewrite inject_Z_plus. change (inject_Z 1) with 1%Q.
    assert (0 <= nth i x 0 <= u)%Q as G.
    { clear - Hu Hx. revert i Hu. induction Hx as [|v j us x Hv _ IH]; intros i Hu; [destruct i; discriminate|].
      destruct i as [|i]; cbn in *; [injection Hu as ->; exact Hv|]. apply IH. exact Hu. }
    rewrite Qmult_plus_distr_r, Qmult_1_r. lra.
Qed.

Lemma average_within us xs x : length x = length us -> xs <> [] -> Forall (within_bounds us) xs ->
  average_config xs x -> within_bounds us x.
Proof.
  intros HL Hne HW HA. unfold within_bounds.
  assert (forall i u j, nth_error us i = Some u -> nth_error x i = Some j -> (0 <= j <= u)%Q) as G.
  { intros i u j Hu Hj. specialize (HA i). assert (i < length x)%nat as Hi by (apply nth_error_Some; congruence).
    specialize (HA Hi). rewrite (nth_error_nth _ _ _ Hj) in HA.
    pose proof (sum_within us i u xs Hu HW) as HS. rewrite <- HA in HS.
    assert (0 < inject_Z (Z.of_nat (length xs)))%Q as HP.
    { destruct xs; [congruence|]. simpl length. rewrite <- (Zlt_Qlt 0). lia. }
    nra. }
  clear - HL G. revert x HL G. induction us as [|u us IH]; intros [|j x] HL G; try discriminate; constructor.
  - apply (G 0%nat); reflexivity.
  - apply IH; [simpl in HL; lia|]. intros i a b Ha Hb. apply (G (S i)); assumption.
Qed.

Lemma last_nth_error {A} (l : list A) d x : l <> [] -> nth_error l (length l - 1) = Some x -> last l d = x.
Proof.
  intros Hne. destruct (exists_last Hne) as (l' & a & ->). rewrite app_length. simpl.
  replace (length l' + 1 - 1)%nat with (length l') by lia. rewrite nth_error_app2, Nat.sub_diag by lia. simpl.
  rewrite last_last. congruence.
Qed.

Section Algorithms.
  Context {C D : Type}.
  Variable vmerge : C -> C -> outcome C.
  Variable merge : C -> C -> C.
  Variable outside : D.
  Variable sched : list Q -> split.
  Variable minimize : (list Q -> outcome ext) -> list (Q * Q) -> list (list Q -> outcome Q) -> outcome (list Q).
  Variable p : gssco Q C D.
  Variable hit : Z -> list Q -> ext.

  Hypothesis Hd : g_d p = Z.of_nat (length (g_bounds p)).
  Hypothesis Hsw : length (g_switching p) = length (g_bounds p).
  Hypothesis Hbounds : Forall (fun u => (0 <= u)%Q) (g_bounds p).
  Hypothesis Hcost : forall s x, 1 <= s <= g_tend p -> within_bounds (g_bounds p) x ->
    exists o, call_predictive (g_cost p) s x = Ok [mkCost (hit s x) o].
  Variable P : list Q -> Prop.
  Variable tol : Q.
  Hypothesis HPzero : P (repeat 0%Q (length (g_bounds p))).

  Let pairs := map (fun u => (0%Q, u)) (g_bounds p).

  Lemma rhc_spec w xs : 0 <= w ->
    let t := Z.of_nat (length xs) + 1 in
    let prev := last xs (repeat 0%Q (length (g_bounds p))) in
    t <= g_tend p <= t + w ->
    Forall (fun x => length x = length (g_bounds p)) xs ->
    solves P tol minimize pairs (Z.to_nat (w + 1))
      (fun ys => plan_cost hit (g_switching p) t prev (firstn (Z.to_nat (g_tend p - t + 1)) ys)) [] ->
    exists x ys, rhc_next vmerge merge outside sched minimize p w xs = Ok x /\
      optimal_plan hit (g_switching p) (g_bounds p) P t (g_tend p) prev (x :: ys).
  Proof.
    intros Hw t prev HT HL HS.
    assert (length prev = length (g_bounds p)) as Hprev.
    { unfold prev. destruct xs as [|y xs _] using rev_ind; [apply repeat_length|]. rewrite last_last.
      apply Forall_app in HL as [_ HL]. inversion HL; auto. }
    destruct (hc_next_spec vmerge merge outside sched minimize p hit Hd Hsw Hbounds Hcost P tol HPzero (w + 1) w t prev)
      as (ys & x0 & x & H1 & H2 & H3 & H4); auto; try lia.
    { replace (t + (w + 1) - (w + 1)) with t by lia. exact HS. }
    replace (t + (w + 1) - (w + 1)) with t in H2 by lia.
    replace (Z.to_nat (w + 1 - (w + 1))) with 0%nat in H4 by lia.
    destruct ys as [|y ys]; [discriminate|]. cbn in H3, H4. assert (y = x) as -> by congruence.
    exists x, ys. split; [|exact H2].
    unfold rhc_next, rhc. fold t. unfold gzero. rewrite Hd, Nat2Z.id. cbn [v_zero valQ]. fold prev. rewrite H1. reflexivity.
  Qed.

  Section Averaging.
    Variables (w : Z) (mem : list (list Q)).
    Let t := g_tend p.
    Hypothesis Hw : 0 <= w.
    Hypothesis Hmem : Z.of_nat (length mem) = w + 1.
    Hypothesis HmemL : Forall (fun x => length x = length (g_bounds p)) mem.
    Hypothesis HS : forall k prev, nth_error mem k = Some prev ->
      solves P tol minimize pairs (Z.to_nat (w + 1))
        (fun ys => plan_cost hit (g_switching p) (t - w + Z.of_nat k) prev
                     (firstn (Z.to_nat (w + 1) - k) ys)) [].

    Definition plan_for (k : Z) (ys : list (list Q)) : Prop :=
      exists prev, nth_error mem (Z.to_nat (k - 1)) = Some prev /\
        optimal_plan hit (g_switching p) (g_bounds p) P (t - w + (k - 1)) t prev ys.

    Lemma afhc_loop_spec : forall ks x acc, (forall k, In k ks -> 1 <= k <= w + 1) ->
      exists plans, Forall2 plan_for ks plans /\
        afhc_loop vmerge merge outside sched minimize p w t mem ks x acc =
        Ok (fold_left config_plus (map (fun ys => last ys []) plans) x, acc ++ map (fun ys => hd [] ys) plans).
    Proof.
      induction ks as [|k ks IH]; intros x acc Hks.
      - exists []. split; [constructor|]. simpl. rewrite app_nil_r. reflexivity.
      - assert (1 <= k <= w + 1) as Hk by (apply Hks; left; reflexivity).
        destruct (nth_error mem (Z.to_nat (k - 1))) as [prev|] eqn:Ep.
        2:{ apply nth_error_None in Ep. lia. }
        assert (length prev = length (g_bounds p)) as Hprev.
        { rewrite Forall_forall in HmemL. apply HmemL. eapply nth_error_In; eassumption. }
        destruct (hc_next_spec vmerge merge outside sched minimize p hit Hd Hsw Hbounds Hcost P tol HPzero k w t prev)
          as (ys & x0 & y & H1 & H2 & H3 & H4); auto; try (unfold t; lia).
        { pose proof (HS _ _ Ep) as G.
          replace (t - w + Z.of_nat (Z.to_nat (k - 1))) with (t + k - (w + 1)) in G by lia.
          replace (Z.to_nat (w + 1) - Z.to_nat (k - 1))%nat with (Z.to_nat (g_tend p - (t + k - (w + 1)) + 1)) in G by (unfold t; lia).
          exact G. }
        destruct (IH (config_plus x y) (acc ++ [x0])) as (plans & P1 & P2).
        { intros k' Hk'. apply Hks. right. exact Hk'. }
        exists (ys :: plans). split.
        + constructor; [|exact P1]. exists prev. split; [exact Ep|].
          replace (t - w + (k - 1)) with (t + k - (w + 1)) by lia. exact H2.
        + cbn [afhc_loop]. rewrite Ep. cbn [from_option obind]. rewrite H1. cbn [obind fst snd]. rewrite P2.
          destruct H2 as [[HL _] _]. fold t in HL.
          assert (ys <> []) as Hne by (intros ->; discriminate).
          assert (last ys [] = y) as E1.
          { apply last_nth_error; auto. rewrite <- H4. f_equal. lia. }
          assert (hd [] ys = x0) as E0.
          { destruct ys; [congruence|]. cbn in *. congruence. }
          cbn [map fold_left]. rewrite E0, E1, <- app_assoc. reflexivity.
    Qed.

    Lemma afhc_spec : exists x mem' plans,
      afhc vmerge merge outside sched minimize p w t mem = Ok (x, mem') /\
      Z.of_nat (length plans) = w + 1 /\
      (forall k prev ys, nth_error mem k = Some prev -> nth_error plans k = Some ys ->
         optimal_plan hit (g_switching p) (g_bounds p) P (t - w + Z.of_nat k) t prev ys) /\
      mem' = map (fun ys => hd [] ys) plans /\
      length x = length (g_bounds p) /\
      average_config (map (fun ys => last ys []) plans) x /\
      within_bounds (g_bounds p) x /\ Forall (within_bounds (g_bounds p)) mem'.
    Proof.
      destruct (afhc_loop_spec (zrange 1 (w + 1)) (gzero valQ (g_d p)) []) as (plans & P1 & P2).
      { intros k Hk. apply zrange_In in Hk. exact Hk. }
      set (lasts := map (fun ys => last ys []) plans) in *.
      assert (Z.of_nat (length plans) = w + 1) as HLp.
      { assert (length (zrange 1 (w + 1)) = length plans) as G by (clear - P1; induction P1; simpl; auto).
        rewrite zrange_length in G. lia. }
      assert (Forall (fun ys => within_bounds (g_bounds p) (last ys []) /\ within_bounds (g_bounds p) (hd [] ys)) plans) as HWp.
      { assert (forall k ys, In k (zrange 1 (w + 1)) -> plan_for k ys ->
          within_bounds (g_bounds p) (last ys []) /\ within_bounds (g_bounds p) (hd [] ys)) as G.
        { intros k ys Hk (prev & _ & ((HL & HF & _) & _)). apply zrange_In in Hk.
          destruct ys as [|y0 ys]; [simpl in HL; lia|]. split.
          - assert (y0 :: ys <> []) as Hne by discriminate. destruct (exists_last Hne) as (l' & b & E). rewrite E in *.
            rewrite last_last. apply Forall_app in HF as [_ HF]. inversion HF; auto.
          - inversion HF; auto. }
        assert (forall ks plans, Forall2 plan_for ks plans -> (forall k, In k ks -> In k (zrange 1 (w + 1))) ->
          Forall (fun ys => within_bounds (g_bounds p) (last ys []) /\ within_bounds (g_bounds p) (hd [] ys)) plans) as G2.
        { induction 1 as [|k ys ks pl Hkp _ IH]; intros Hin; constructor.
          - apply (G k); auto. apply Hin. left. reflexivity.
          - apply IH. intros k' Hk'. apply Hin. right. exact Hk'. }
        apply (G2 _ _ P1). auto. }
      assert (Forall (within_bounds (g_bounds p)) lasts) as HWl.
      { unfold lasts. apply Forall_map. eapply Forall_impl; [|exact HWp]. simpl. intros; tauto. }
      assert (Forall (fun y => length y = length (g_bounds p)) lasts) as HLl.
      { eapply Forall_impl; [|exact HWl]. intros y Hy. clear - Hy. induction Hy; simpl; auto. }
      destruct (fold_config_plus (length (g_bounds p)) lasts (gzero valQ (g_d p))) as [F1 F2]; auto.
      { unfold gzero. rewrite repeat_length. lia. }
      set (s := fold_left config_plus lasts (gzero valQ (g_d p))) in *.
      assert (~ inject_Z (w + 1) == 0)%Q as Hnz.
      { intros E. assert (0 < inject_Z (w + 1))%Q as G by (rewrite <- (Zlt_Qlt 0); lia). lra. }
      assert (average_config lasts (config_quot s (inject_Z (w + 1)))) as HA.
      { intros i Hi. unfold config_quot in *. rewrite map_length in Hi.
        rewrite (nth_indep _ 0%Q (0 / inject_Z (w + 1))%Q) by (rewrite map_length; exact Hi).
        rewrite (map_nth (fun j => j / inject_Z (w + 1))%Q).
        unfold lasts at 1. rewrite map_length, HLp. rewrite F2.
        assert (nth i (gzero valQ (g_d p)) 0 == 0)%Q as ->.
        { unfold gzero. cbn [v_zero valQ]. destruct (nth_in_or_default i (repeat 0%Q (Z.to_nat (g_d p))) 0%Q) as [H|H].
          - apply repeat_spec in H. rewrite H. reflexivity.
          - rewrite H. reflexivity. }
        field. exact Hnz. }
      exists (config_quot s (inject_Z (w + 1))), (map (fun ys => hd [] ys) plans), plans.
      split; [|split; [|split; [|split; [|split; [|split; [|split]]]]]]; auto.
      - unfold afhc. rewrite P2. reflexivity.
      - intros k prev ys Hk Hys.
        assert (exists z, nth_error (zrange 1 (w + 1)) k = Some z /\ plan_for z ys) as (z & Hz & (prev' & Hp' & HO)).
        { clear - P1 Hys. revert k Hys. induction P1 as [|z pl zs pls Hz _ IH]; intros [|k] Hys; try discriminate; cbn in *.
          - injection Hys as <-. eauto.
          - apply IH. exact Hys. }
        assert (z = 1 + Z.of_nat k) as ->.
        { unfold zrange in Hz. rewrite nth_error_map in Hz.
          destruct (nth_error (seq 0 _) k) as [m|] eqn:E; [|discriminate]. cbn [option_map] in Hz.
          assert (1 + Z.of_nat m = z) as <- by congruence.
          assert (k < Z.to_nat (w + 1 - 1 + 1))%nat as Hlt.
          { rewrite <- (seq_length (Z.to_nat (w + 1 - 1 + 1)) 0). apply nth_error_Some. congruence. }
          rewrite (nth_error_nth' _ 0%nat) in E by (rewrite seq_length; exact Hlt). rewrite seq_nth in E by exact Hlt.
          assert (0 + k = m)%nat by congruence. lia. }
        replace (Z.to_nat (1 + Z.of_nat k - 1)) with k in Hp' by lia. assert (prev' = prev) as -> by congruence.
        replace (t - w + Z.of_nat k) with (t - w + (1 + Z.of_nat k - 1)) by lia. exact HO.
      - unfold config_quot. rewrite map_length. exact F1.
      - apply (average_within _ lasts); auto.
        + unfold config_quot. rewrite map_length. exact F1.
        + unfold lasts. intros E. destruct plans; [simpl in HLp; lia|discriminate].
      - apply Forall_map. eapply Forall_impl; [|exact HWp]. simpl. intros; tauto.
    Qed.
  End Averaging.
End Algorithms.

(** ** Offline convex optimisation *)
Section Movement.
  Context {C D : Type}.
  Variable p : oproblem (list Q) C D.
  Variable sw : list Q -> list Q -> Q.
  Variable x0 : list Q.

  Lemma movements_along : forall xs pre,
    Z.of_nat (length pre + length xs) = op_tend p ->
    (forall a b, (a = last pre x0 \/ In a xs) -> In b xs -> exists m, op_move p a b false = Ok m /\ (m == sw a b)%Q) ->
    exists ms,
      omap (fun t => op_move p (get_or (pre ++ xs) x0 (t - 1)) (get_or (pre ++ xs) x0 t) false)
           (zrange (1 + Z.of_nat (length pre)) (op_tend p)) = Ok ms /\
      (Qsum ms == total_switching sw (last pre x0) xs)%Q.
  Proof.
    induction xs as [|x xs IH]; intros pre HL Hm.
    - rewrite zrange_nil by (cbn [length] in HL; lia). exists []. split; reflexivity.
    - cbn [length] in HL. rewrite zrange_cons by lia. cbn [omap].
      rewrite get_or_app_at. replace (1 + Z.of_nat (length pre) - 1) with (Z.of_nat (length pre)) by lia.
      rewrite get_or_prev.
      destruct (Hm (last pre x0) x) as (m & Hmv & Em); [left; reflexivity|left; reflexivity|].
      rewrite Hmv. cbn [obind].
      specialize (IH (pre ++ [x])). rewrite <- app_assoc in IH. cbn [app] in IH.
      rewrite last_last, app_length in IH. cbn [length] in IH.
      destruct IH as (ms & H1 & H2).
      + lia.
      + intros a b Ha Hb. apply Hm; [|right; assumption]. right. destruct Ha as [-> | Ha]; [left; reflexivity|right; assumption].
      + replace (1 + Z.of_nat (length pre) + 1) with (1 + Z.of_nat (length pre + 1)) by lia.
        rewrite H1. cbn [obind]. eexists. split; [reflexivity|]. cbn [Qsum total_switching]. rewrite Em, H2. reflexivity.
  Qed.
End Movement.

Section Offline.
  Context {C D : Type}.
  Variable vmerge : C -> C -> outcome C.
  Variable merge : C -> C -> C.
  Variable outside : D.
  Variable sched : list Q -> split.
  Variable minimize : (list Q -> outcome ext) -> list (Q * Q) -> list (list Q -> outcome Q) -> outcome (list Q).
  Variable p : gsco Q C D.
  Variable hit : Z -> list Q -> ext.
  Variable norm : list Q -> Q.

  Hypothesis Hd : o_d p = Z.of_nat (length (o_bounds p)).
  Hypothesis HT : 0 <= o_tend p.
  Hypothesis Hcost : forall s x, 1 <= s <= o_tend p -> in_boxQ (o_bounds p) x ->
    exists c, call_mean vmerge (o_cost p) s x = Ok c /\ eeq (c_cost c) (hit s x).
  Hypothesis Hnorm : forall x, length x = length (o_bounds p) -> exists q, o_norm p x = Ok q /\ (q == norm x)%Q.
  Variable P : list Q -> Prop.
  Variable tol : Q.

  Let n := Z.to_nat (o_tend p).
  Let dim := length (o_bounds p).

  Lemma co_move a b : length a = dim -> length b = dim ->
    exists m, gsco_move valQ p a b false = Ok m /\ (m == norm (differenceQ b a))%Q.
  Proof.
    intros Ha Hb. unfold gsco_move. change (config_sub valQ b a) with (differenceQ b a). apply Hnorm.
    unfold differenceQ. rewrite map_length, combine_length. unfold dim in *. lia.
  Qed.

  Lemma co_objective_spec alpha xs : rows P (o_bounds p) n xs ->
    exists c, co_objective vmerge merge outside sched p alpha (concat xs) = Ok c /\
      eeq c (alpha_cost hit norm dim alpha xs).
  Proof.
    intros Hr. unfold co_objective. pose proof (rows_from_raw _ _ _ _ Hr) as HF. rewrite <- Hd in HF. unfold n in HF.
    rewrite Z2Nat.id in HF by lia. rewrite HF. cbn [obind].
    pose proof (rows_lengths _ _ _ _ Hr) as HL. destruct Hr as (HN & HB & _).
    rewrite Forall_forall in HL, HB.
    assert (gzero valQ (o_d p) = repeat 0%Q dim) as EZ by (unfold gzero; rewrite Hd, Nat2Z.id; reflexivity).
    rewrite EZ.
    destruct (objective_along merge (gsco_problem valQ vmerge outside p) hit
                (fun prev x => norm (differenceQ x prev)) (repeat 0%Q dim) alpha false (sched (concat xs)) xs) as (c & H1 & H2).
    - cbn. unfold n in HN. lia.
    - intros t x Ht Hx. cbn [gsco_problem op_hit]. unfold gsco_hit, call_mean_within.
      destruct (within_pairs_spec valQ (o_bounds p) x) as (b & -> & Hb). { specialize (HL x Hx). simpl in HL. lia. }
      assert (b = true) as ->. { apply Hb. apply HB. exact Hx. }
      cbn [obind]. apply Hcost; auto.
    - intros a b Ha Hb. cbn [gsco_problem op_move]. apply co_move.
      + destruct Ha as [-> | Ha]; [apply repeat_length|]. specialize (HL a Ha). simpl in HL. unfold dim. lia.
      + specialize (HL b Hb). simpl in HL. unfold dim. lia.
    - change (op_tend (gsco_problem valQ vmerge outside p)) with (o_tend p) in H1. rewrite H1. cbn [obind].
      exists (c_cost c). split; [reflexivity|exact H2].
  Qed.

  Lemma co_constraint_spec l xs : rows P (o_bounds p) n xs ->
    exists q, co_constraint vmerge outside p l (concat xs) = Ok q /\ (q == movement_of norm dim xs - l)%Q.
  Proof.
    intros Hr. unfold co_constraint. pose proof (rows_from_raw _ _ _ _ Hr) as HF. rewrite <- Hd in HF. unfold n in HF.
    rewrite Z2Nat.id in HF by lia. rewrite HF. cbn [obind].
    pose proof (rows_lengths _ _ _ _ Hr) as HL. destruct Hr as (HN & HB & _). rewrite Forall_forall in HL.
    assert (gzero valQ (o_d p) = repeat 0%Q dim) as -> by (unfold gzero; rewrite Hd, Nat2Z.id; reflexivity).
    unfold total_movement_o.
    destruct (movements_along (gsco_problem valQ vmerge outside p) (fun prev x => norm (differenceQ x prev)) (repeat 0%Q dim) xs [])
      as (ms & H1 & H2).
    - cbn. unfold n in HN. lia.
    - intros a b Ha Hb. cbn [gsco_problem op_move]. apply co_move.
      + destruct Ha as [-> | Ha]; [apply repeat_length|]. specialize (HL a Ha). simpl in HL. unfold dim. lia.
      + specialize (HL b Hb). simpl in HL. unfold dim. lia.
    - cbn [app length] in H1. change (1 + Z.of_nat 0) with 1 in H1. rewrite H1. cbn [obind].
      eexists. split; [reflexivity|]. unfold movement_of. cbn [last] in H2. rewrite H2. reflexivity.
  Qed.

  Lemma combine_concat (xs : list (Q * Q)) k :
    combine (concat (repeat (map fst xs) k)) (concat (repeat (map snd xs) k)) = concat (repeat xs k).
  Proof.
    induction k as [|k IH]; [reflexivity|]. cbn [repeat concat]. rewrite <- IH.
    generalize (concat (repeat (map fst xs) k)), (concat (repeat (map snd xs) k)). clear.
    induction xs as [|(a, b) xs IH]; intros l r; [reflexivity|]. cbn. rewrite IH. reflexivity.
  Qed.

  Lemma co_spec alpha l :
    solves P tol minimize (o_bounds p) n (alpha_cost hit norm dim alpha)
      (match l with Some l => [fun xs => (movement_of norm dim xs - l)%Q] | None => [] end) ->
    exists xs, co vmerge merge outside sched minimize p false alpha l = Ok xs /\
      rows P (o_bounds p) n xs /\
      forall ys, rows P (o_bounds p) n ys -> (forall l', l = Some l' -> (movement_of norm dim ys <= l')%Q) ->
        (forall l', l = Some l' -> (movement_of norm dim xs <= l' + tol)%Q) /\
        ele (alpha_cost hit norm dim alpha xs) (alpha_cost hit norm dim alpha ys).
  Proof.
    intros HS.
    destruct (HS (co_objective vmerge merge outside sched p alpha)
                 (match l with Some l => [co_constraint vmerge outside p l] | None => [] end)) as (r & H1 & H2 & H3 & H4).
    - intros xs Hxs. apply co_objective_spec. exact Hxs.
    - destruct l as [l|]; constructor; [|constructor]. intros xs Hxs. apply co_constraint_spec. exact Hxs.
    - exists r. split; [|split; [exact H2|]].
      + unfold co. rewrite !build_raw_spec by lia. cbn [obind]. unfold ConvertSpec.flatten. fold n. rewrite combine_concat, H1. cbn [obind].
        pose proof (rows_from_raw _ _ _ _ H2) as HF. rewrite <- Hd in HF. unfold n in HF. rewrite Z2Nat.id in HF by lia. exact HF.
      + intros ys Hy Hl.
        assert (Forall (fun G : list (list Q) -> Q => (G ys <= 0)%Q)
                  (match l with Some l => [fun xs => (movement_of norm dim xs - l)%Q] | None => [] end)) as HG.
        { destruct l as [l|]; constructor; [|constructor]. specialize (Hl l eq_refl). lra. }
        split; [|apply H4; assumption]. intros l' ->.
        assert (exists xs, rows P (o_bounds p) n xs /\ Forall (fun G : list (list Q) -> Q => (G xs <= 0)%Q) [fun xs => (movement_of norm dim xs - l')%Q]) as HE by eauto.
        specialize (H3 HE). apply Forall_inv in H3. lra.
  Qed.
End Offline.

Lemma co_inverted_err {C D} (vmerge : C -> C -> outcome C) (merge : C -> C -> C) (outside : D) (sched : list Q -> split)
    minimize (p : gsco Q C D) alpha l :
  co vmerge merge outside sched minimize p true alpha l = Err UnsupportedInvertedCost.
Proof. reflexivity. Qed.

Section Online.
  Context {C D : Type}.
  Variable vmerge : C -> C -> outcome C.
  Variable merge : C -> C -> C.
  Variable outside : D.
  Variable sched : list Q -> split.
  Variable minimize : (list Q -> outcome ext) -> list (Q * Q) -> list (list Q -> outcome Q) -> outcome (list Q).
  Variable p : gssco Q C D.
  Variable hit : Z -> list Q -> ext.

  Hypothesis Hd : g_d p = Z.of_nat (length (g_bounds p)).
  Hypothesis Hsw : length (g_switching p) = length (g_bounds p).
  Hypothesis Hbounds : Forall (fun u => (0 <= u)%Q) (g_bounds p).
  Hypothesis Hcost : forall s x, 1 <= s <= g_tend p -> within_bounds (g_bounds p) x ->
    exists o, call_predictive (g_cost p) s x = Ok [mkCost (hit s x) o].
  Variable P : list Q -> Prop.
  Variable tol : Q.
  Hypothesis HPzero : P (repeat 0%Q (length (g_bounds p))).

  Let pairs := map (fun u => (0%Q, u)) (g_bounds p).

  Lemma afhc_next_spec w (xs mem : list (list Q)) m :
    (m = Some mem \/ m = None /\ mem = repeat (repeat 0%Q (length (g_bounds p))) (Z.to_nat (w + 1))) ->
    0 <= w -> Z.of_nat (length mem) = w + 1 ->
    Forall (fun x => length x = length (g_bounds p)) mem ->
    let t := Z.of_nat (length xs) + 1 in
    g_tend p = t ->
    (forall k prev, nth_error mem k = Some prev ->
       solves P tol minimize pairs (Z.to_nat (w + 1))
         (fun ys => plan_cost hit (g_switching p) (t - w + Z.of_nat k) prev (firstn (Z.to_nat (w + 1) - k) ys)) []) ->
    exists x mem' plans,
      afhc_next vmerge merge outside sched minimize p w xs m = Ok (x, mem') /\
      Z.of_nat (length plans) = w + 1 /\
      (forall k prev ys, nth_error mem k = Some prev -> nth_error plans k = Some ys ->
         optimal_plan hit (g_switching p) (g_bounds p) P (t - w + Z.of_nat k) t prev ys) /\
      mem' = map (fun ys => hd [] ys) plans /\
      length x = length (g_bounds p) /\
      average_config (map (fun ys => last ys []) plans) x /\
      within_bounds (g_bounds p) x /\ Forall (within_bounds (g_bounds p)) mem'.
  Proof.
    intros Hm Hw HL HF t HT HS. unfold afhc_next. fold t. rewrite <- HT in HS |- *.
    assert (match m with Some b => b | None => afhc_default p w end = mem) as ->.
    { destruct Hm as [-> | [-> ->]]; [reflexivity|]. unfold afhc_default, gzero. rewrite Hd, Nat2Z.id. reflexivity. }
    apply afhc_spec with (tol := tol); auto.
  Qed.

  Lemma rhc_current w xs : 0 <= w ->
    let t := Z.of_nat (length xs) + 1 in
    let prev := last xs (repeat 0%Q (length (g_bounds p))) in
    g_tend p = t ->
    Forall (fun x => length x = length (g_bounds p)) xs ->
    solves P tol minimize pairs (Z.to_nat (w + 1))
      (fun ys => plan_cost hit (g_switching p) t prev (firstn 1 ys)) [] ->
    exists x, rhc_next vmerge merge outside sched minimize p w xs = Ok x /\ within_bounds (g_bounds p) x /\ P x /\
      forall y, within_bounds (g_bounds p) y -> P y ->
        ele (eadd (hit t x) (Fin (power_upQ (g_switching p) prev x)))
            (eadd (hit t y) (Fin (power_upQ (g_switching p) prev y))).
  Proof.
    intros Hw t prev HT HF HS.
    destruct (rhc_spec vmerge merge outside sched minimize p hit Hd Hsw Hbounds Hcost P tol HPzero w xs) as (x & ys & H1 & (H2 & H3 & H5) & H4); auto.
    - fold t. lia.
    - fold t prev. replace (Z.to_nat (g_tend p - t + 1)) with 1%nat by lia. exact HS.
    - fold t prev in H2, H3, H4. exists x. split; [exact H1|]. split; [exact (Forall_inv H3)|]. split; [exact (Forall_inv H5)|].
      intros y Hy HPy. destruct ys; [|simpl in H2; lia]. specialize (H4 [y]). unfold plan_cost in H4. cbn [total_cost] in H4.
      unfold hit_from_1 in H4. rewrite (proj2 (Z.ltb_ge t 1)) in H4 by (unfold t; lia).
      assert (ele (eadd (eadd (hit t x) (Fin (1 * power_upQ (g_switching p) prev x))) (Fin 0))
                  (eadd (eadd (hit t y) (Fin (1 * power_upQ (g_switching p) prev y))) (Fin 0))) as G.
      { apply H4; [simpl; lia| |]; constructor; auto. }
      destruct (hit t x), (hit t y); simpl in *; auto; lra.
  Qed.
End Online.
