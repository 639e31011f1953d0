(** Lanes of configurations. *)
From Coq Require Import Lia Lqa.
From Verif Require Import NumLemmas CostModel ConvertProofs LoadProofs BudgetModel BudgetSpec BudgetCover.
From Verif Require Import CostModel ProblemModel.
Local Open Scope Z_scope.

Lemma at_index_Some {A} (l : list A) k a : at_index l k = Ok a <-> 0 <= k /\ nth_error l (Z.to_nat k) = Some a.
Proof.
  unfold at_index. destruct (k <? 0) eqn:E.
  - apply Z.ltb_lt in E. split; [discriminate|lia].
  - apply Z.ltb_ge in E. split.
    + intros H. apply from_option_inv in H. auto.
    + intros [_ ->]. reflexivity.
Qed.

Lemma at_index_nat {A} (l : list A) (i : nat) a : nth_error l i = Some a -> at_index l (Z.of_nat i) = Ok a.
Proof. intros H. apply at_index_Some. split; [lia|]. rewrite Nat2Z.id. exact H. Qed.

Lemma omap_map_Ok {A B} (f : A -> outcome B) (g : A -> B) l :
  (forall a, In a l -> f a = Ok (g a)) -> omap f l = Ok (map g l).
Proof.
  induction l as [|a l IH]; intros H; simpl; [reflexivity|].
  rewrite (H a (or_introl eq_refl)). simpl. rewrite IH by (intros; apply H; right; assumption). reflexivity.
Qed.

Lemma zsum_app a b : zsum (a ++ b) = zsum a + zsum b.
Proof. unfold zsum. induction a as [|y a IH]; simpl; [reflexivity|]. rewrite IH. lia. Qed.

Lemma zsum_nonneg x : Forall (fun j => 0 <= j) x -> 0 <= zsum x.
Proof. unfold zsum. induction 1; simpl; lia. Qed.

(** *** [active_lanes] sums a suffix *)
Lemma suffix_indices (pre suf : list Z) :
  omap (fun k => at_index (pre ++ suf) (k - 1)) (zrange (Z.of_nat (length pre) + 1) (Z.of_nat (length (pre ++ suf)))) = Ok suf.
Proof.
  revert pre. induction suf as [|a r IH]; intros pre.
  - rewrite app_nil_r, zrange_nil by lia. reflexivity.
  - rewrite zrange_cons by (rewrite app_length; simpl; lia). simpl.
    replace (Z.of_nat (length pre) + 1 - 1) with (Z.of_nat (length pre)) by lia.
    rewrite (at_index_nat _ _ a) by (rewrite nth_error_app2, Nat.sub_diag by lia; reflexivity). simpl.
    specialize (IH (pre ++ [a])). rewrite <- app_assoc in IH. simpl in IH.
    replace (Z.of_nat (length (pre ++ [a]))) with (Z.of_nat (length pre) + 1) in IH by (rewrite app_length; simpl; lia).
    rewrite IH. reflexivity.
Qed.

Lemma active_lanes_suffix pre suf :
  active_lanes (pre ++ suf) (Z.of_nat (length pre) + 1) (Z.of_nat (length (pre ++ suf))) = Ok (zsum suf).
Proof. unfold active_lanes. rewrite suffix_indices. reflexivity. Qed.

Lemma lanes_of_length k x : Forall (fun j => 0 <= j) x -> Z.of_nat (length (lanes_of k x)) = zsum x.
Proof.
  intros H. revert k. induction H as [|a r Ha Hr IH]; intros k; simpl; [reflexivity|].
  rewrite app_length, repeat_length. specialize (IH (k + 1)). unfold zsum in *. simpl. lia.
Qed.

Lemma pick_lane_spec pre suf k lane : 0 <= k -> Forall (fun j => 0 <= j) suf ->
  pick_lane (pre ++ suf) (Z.of_nat (length (pre ++ suf))) k
    (zrange (Z.of_nat (length pre) + 1) (Z.of_nat (length (pre ++ suf)))) lane
  = Ok (nth (Z.to_nat k) (lanes_of (Z.of_nat (length pre) + 1) suf) lane).
Proof.
  intros Hk H. revert pre lane. induction H as [|a r Ha Hr IH]; intros pre lane.
  - rewrite app_nil_r, zrange_nil by lia. simpl. destruct (Z.to_nat k); reflexivity.
  - rewrite zrange_cons by (rewrite app_length; simpl; lia).
    cbn [pick_lane]. rewrite active_lanes_suffix. cbn [obind].
    specialize (IH (pre ++ [a])). rewrite <- app_assoc in IH. simpl app in IH.
    replace (Z.of_nat (length (pre ++ [a]))) with (Z.of_nat (length pre) + 1) in IH by (rewrite app_length; simpl; lia).
    rewrite IH. f_equal. cbn [lanes_of].
    pose proof (lanes_of_length (Z.of_nat (length pre) + 1 + 1) r Hr) as HL.
    pose proof (zsum_nonneg r Hr) as H0.
    assert (Es : zsum (a :: r) = a + zsum r) by reflexivity.
    destruct (k + 1 <=? zsum (a :: r)) eqn:E.
    + apply Z.leb_le in E. destruct (Z_lt_le_dec k (zsum r)).
      * rewrite app_nth1 by lia. apply nth_indep. lia.
      * rewrite nth_overflow by lia. rewrite app_nth2 by lia.
        rewrite (nth_indep _ lane (Z.of_nat (length pre) + 1)) by (rewrite repeat_length; lia).
        rewrite nth_repeat. reflexivity.
    + apply Z.leb_gt in E. rewrite nth_overflow by lia.
      rewrite nth_overflow; [reflexivity|]. rewrite app_length, repeat_length. lia.
Qed.

Lemma nth_lanes_pad (l : list Z) (b : nat) (k : nat) : (length l <= b)%nat ->
  nth k l 0 = nth k (l ++ repeat 0 (b - length l)) 0.
Proof.
  intros H. destruct (Nat.lt_ge_cases k (length l)).
  - rewrite app_nth1 by lia. reflexivity.
  - rewrite nth_overflow by lia. rewrite app_nth2 by lia. rewrite nth_repeat. reflexivity.
Qed.

Lemma map_nth_zrange (l : list Z) : map (fun k => nth (Z.to_nat k) l 0) (zrange 0 (Z.of_nat (length l) - 1)) = l.
Proof.
  assert (G : forall suf pre, l = pre ++ suf ->
    map (fun k => nth (Z.to_nat k) l 0) (zrange (Z.of_nat (length pre)) (Z.of_nat (length l) - 1)) = suf).
  { induction suf as [|a r IH]; intros pre E.
    - rewrite app_nil_r in E. subst pre. rewrite zrange_nil by lia. reflexivity.
    - rewrite zrange_cons by (rewrite E, app_length; simpl; lia). simpl. f_equal.
      + rewrite Nat2Z.id, E. apply nth_middle.
      + specialize (IH (pre ++ [a])). rewrite app_length in IH. simpl in IH.
        replace (Z.of_nat (length pre + 1)) with (Z.of_nat (length pre) + 1) in IH by lia.
        apply IH. rewrite E, <- app_assoc. reflexivity. }
  apply (G l []). reflexivity.
Qed.

(** C28: the lanes of a configuration. *)
Lemma build_lanes_spec x bound : Forall (fun j => 0 <= j) x -> zsum x <= bound ->
  build_lanes x (Z.of_nat (length x)) bound = Ok (lanes_of 1 x ++ repeat 0 (Z.to_nat (bound - zsum x))).
Proof.
  intros H Hb. pose proof (lanes_of_length 1 x H) as HL. pose proof (zsum_nonneg x H) as H0.
  unfold build_lanes.
  assert (E : omap (fun k => do a <- active_lanes x 1 (Z.of_nat (length x));
      (if k + 1 <=? a then pick_lane x (Z.of_nat (length x)) k (zrange 1 (Z.of_nat (length x))) 0 else Ok 0)) (zrange 0 (bound - 1))
    = Ok (map (fun k => nth (Z.to_nat k) (lanes_of 1 x) 0) (zrange 0 (bound - 1)))).
  { apply omap_map_Ok. intros k Hk. apply zrange_In in Hk.
    pose proof (active_lanes_suffix [] x) as HA. cbn [length Z.of_nat Z.add app] in HA. rewrite HA. cbn [obind].
    destruct (k + 1 <=? zsum x) eqn:E.
    - pose proof (pick_lane_spec [] x k 0) as HP. cbn [length Z.of_nat Z.add app] in HP. apply HP; [lia|exact H].
    - apply Z.leb_gt in E. rewrite nth_overflow by lia. reflexivity. }
  rewrite E. f_equal.
  set (l := lanes_of 1 x ++ repeat 0 (Z.to_nat (bound - zsum x))).
  assert (Hl : bound = Z.of_nat (length l)) by (unfold l; rewrite app_length, repeat_length; lia).
  rewrite <- (map_nth_zrange l). rewrite Hl. apply map_ext_in. intros k Hk. apply zrange_In in Hk.
  unfold l. destruct (Nat.lt_ge_cases (Z.to_nat k) (length (lanes_of 1 x))).
  - rewrite app_nth1 by lia. reflexivity.
  - rewrite nth_overflow by lia. rewrite app_nth2 by lia. rewrite nth_repeat. reflexivity.
Qed.

(** *** Counting *)
Lemma count_app a b k : count (a ++ b) k = count a k + count b k.
Proof. unfold count. rewrite count_occ_app. lia. Qed.

Lemma count_cons a l k : count (a :: l) k = (if Z.eq_dec a k then 1 else 0) + count l k.
Proof. unfold count. simpl. destruct (Z.eq_dec a k); lia. Qed.

Lemma count_repeat a n k : count (repeat a n) k = if Z.eq_dec a k then Z.of_nat n else 0.
Proof.
  unfold count. induction n as [|n IH]; [simpl; destruct (Z.eq_dec a k); reflexivity|].
  cbn [repeat count_occ]. destruct (Z.eq_dec a k); [rewrite Nat2Z.inj_succ, IH; lia|exact IH].
Qed.

Lemma lanes_of_values k x j : In j (lanes_of k x) -> k <= j < k + Z.of_nat (length x).
Proof.
  revert k. induction x as [|a r IH]; intros k H; simpl in H; [destruct H|].
  apply in_app_iff in H as [H|H].
  - apply IH in H. simpl. lia.
  - apply repeat_spec in H. subst. simpl. lia.
Qed.

Lemma count_not_In l k : ~ In k l -> count l k = 0.
Proof. intros H. unfold count. apply (count_occ_not_In Z.eq_dec) in H. lia. Qed.

Lemma lanes_of_count : forall x k i a, Forall (fun j => 0 <= j) x -> nth_error x i = Some a ->
  count (lanes_of k x) (k + Z.of_nat i) = a.
Proof.
  induction x as [|b r IH]; intros k i a H Hi; [destruct i; discriminate|].
  inversion H; subst. simpl. rewrite count_app, count_repeat. destruct i as [|i]; simpl in Hi.
  - assert (b = a) by congruence. subst b. destruct (Z.eq_dec k (k + Z.of_nat 0)); [|lia].
    rewrite count_not_In; [lia|]. intros HI. apply lanes_of_values in HI. lia.
  - destruct (Z.eq_dec k (k + Z.of_nat (S i))); [lia|].
    replace (k + Z.of_nat (S i)) with (k + 1 + Z.of_nat i) by lia. rewrite (IH _ _ a); auto. lia.
Qed.

Lemma update_nth : forall {A} (l : list A) k a i, nth_error (update l k a) i =
  if Nat.eq_dec i k then (if lt_dec k (length l) then Some a else None) else nth_error l i.
Proof.
  induction l as [|b l IH]; intros k a i; simpl.
  - destruct (Nat.eq_dec i k); destruct i; reflexivity.
  - destruct k as [|k]; destruct i as [|i]; simpl; try reflexivity. rewrite IH.
    destruct (Nat.eq_dec i k), (Nat.eq_dec (S i) (S k)); try lia; try reflexivity.
    destruct (lt_dec k (length l)), (lt_dec (S k) (S (length l))); try lia; reflexivity.
Qed.

Lemma update_length : forall {A} (l : list A) k a, length (update l k a) = length l.
Proof. induction l as [|b l IH]; intros [|k] a; simpl; try reflexivity. rewrite IH. reflexivity. Qed.

Lemma list_ext {A} (l l' : list A) : (forall i, nth_error l i = nth_error l' i) -> l = l'.
Proof.
  revert l'. induction l as [|a l IH]; intros [|b l'] H.
  - reflexivity.
  - specialize (H 0%nat). discriminate.
  - specialize (H 0%nat). discriminate.
  - f_equal; [specialize (H 0%nat); simpl in H; congruence|]. apply IH. intros i. apply (H (S i)).
Qed.

Lemma collect_from_spec : forall lanes config,
  Forall (fun j => 0 <= j <= Z.of_nat (length config)) lanes ->
  exists c, collect_from config lanes = Ok c /\ length c = length config /\
    forall i a, nth_error config i = Some a -> nth_error c i = Some (a + count lanes (Z.of_nat i + 1)).
Proof.
  induction lanes as [|l r IH]; intros config H; cbn [collect_from].
  - exists config. split; [reflexivity|]. split; [reflexivity|]. intros i a Hi. rewrite Hi. f_equal. unfold count. simpl. lia.
  - inversion H as [|? ? Hl Hr]; subst. destruct (0 <? l) eqn:E.
    + apply Z.ltb_lt in E.
      destruct (nth_error config (Z.to_nat (l - 1))) as [j|] eqn:Ej.
      2:{ apply nth_error_None in Ej. lia. }
      rewrite (proj2 (at_index_Some config (l - 1) j)) by (split; [lia|exact Ej]). cbn [obind].
      destruct (IH (update config (Z.to_nat (l - 1)) (j + 1))) as (c & Hc & HL & HN).
      { rewrite update_length. exact Hr. }
      exists c. split; [exact Hc|]. split; [rewrite HL; apply update_length|].
      intros i a Hi. assert (Hlen : (i < length config)%nat) by (apply nth_error_Some; congruence).
      rewrite count_cons. destruct (Nat.eq_dec i (Z.to_nat (l - 1))) as [->|Hne].
      * assert (j = a) by congruence. subst j.
        rewrite (HN _ (a + 1)).
        -- destruct (Z.eq_dec l (Z.of_nat (Z.to_nat (l - 1)) + 1)); [f_equal; lia|lia].
        -- rewrite update_nth. destruct (Nat.eq_dec _ _); [|lia]. destruct (lt_dec _ _); [reflexivity|lia].
      * rewrite (HN _ a).
        -- destruct (Z.eq_dec l (Z.of_nat i + 1)); [lia|]. reflexivity.
        -- rewrite update_nth. destruct (Nat.eq_dec _ _); [lia|exact Hi].
    + apply Z.ltb_ge in E. destruct (IH config Hr) as (c & Hc & HL & HN). exists c. split; [exact Hc|]. split; [exact HL|].
      intros i a Hi. rewrite (HN i a Hi), count_cons. destruct (Z.eq_dec l (Z.of_nat i + 1)); [lia|]. reflexivity.
Qed.

Lemma collect_config_spec d lanes : 0 <= d -> Forall (fun j => 0 <= j <= d) lanes ->
  exists c, collect_config d lanes = Ok c /\ Z.of_nat (length c) = d /\
    forall i, (i < length c)%nat -> nth_error c i = Some (count lanes (Z.of_nat i + 1)).
Proof.
  intros Hd H. unfold collect_config.
  destruct (collect_from_spec lanes (repeat 0 (Z.to_nat d))) as (c & Hc & HL & HN).
  - rewrite repeat_length. rewrite Z2Nat.id by exact Hd. exact H.
  - rewrite repeat_length in HL. exists c. split; [exact Hc|]. split; [lia|]. intros i Hi.
    rewrite (HN i 0).
    + f_equal.
    + rewrite nth_error_repeat; [reflexivity|lia].
Qed.

(** C28: round trip. *)
Lemma collect_build x bound : Forall (fun j => 0 <= j) x -> zsum x <= bound ->
  exists lanes, build_lanes x (Z.of_nat (length x)) bound = Ok lanes /\
    collect_config (Z.of_nat (length x)) lanes = Ok x.
Proof.
  intros H Hb. rewrite (build_lanes_spec x bound H Hb). eexists. split; [reflexivity|].
  set (lanes := _ ++ _).
  assert (HV : Forall (fun j => 0 <= j <= Z.of_nat (length x)) lanes).
  { apply Forall_forall. intros j Hj. unfold lanes in Hj. apply in_app_iff in Hj as [Hj|Hj].
    - apply lanes_of_values in Hj. lia.
    - apply repeat_spec in Hj. lia. }
  destruct (collect_config_spec (Z.of_nat (length x)) lanes ltac:(lia) HV) as (c & -> & HL & HN).
  f_equal. apply list_ext. intros i. destruct (Nat.lt_ge_cases i (length x)) as [Hi|Hi].
  - rewrite HN by lia. destruct (nth_error x i) as [a|] eqn:E.
    2:{ apply nth_error_None in E. lia. }
    f_equal. unfold lanes. rewrite count_app, count_repeat.
    destruct (Z.eq_dec 0 (Z.of_nat i + 1)); [lia|].
    replace (Z.of_nat i + 1) with (1 + Z.of_nat i) by lia. rewrite (lanes_of_count x 1 i a H E). lia.
  - rewrite !(proj2 (nth_error_None _ _)) by lia. reflexivity.
Qed.

(** Sortedness. *)
Lemma non_increasing_app a b : non_increasing a -> non_increasing b ->
  (forall x y, In x a -> In y b -> y <= x) -> non_increasing (a ++ b).
Proof.
  intros Ha Hb Hab i j x y Hij Hx Hy.
  destruct (Nat.lt_ge_cases i (length a)), (Nat.lt_ge_cases j (length a)); try lia.
  - rewrite nth_error_app1 in Hx, Hy by lia. exact (Ha i j x y Hij Hx Hy).
  - rewrite nth_error_app1 in Hx by lia. rewrite nth_error_app2 in Hy by lia.
    exact (Hab x y (nth_error_In _ _ Hx) (nth_error_In _ _ Hy)).
  - rewrite nth_error_app2 in Hx, Hy by lia. eapply Hb; [|exact Hx|exact Hy]. lia.
Qed.

Lemma non_increasing_repeat a n : non_increasing (repeat a n).
Proof.
  intros i j x y _ Hx Hy. apply nth_error_In, repeat_spec in Hx. apply nth_error_In, repeat_spec in Hy. lia.
Qed.

Lemma lanes_of_sorted k x : non_increasing (lanes_of k x).
Proof.
  revert k. induction x as [|a r IH]; intros k; simpl.
  - intros i j a b _ Ha _. destruct i; discriminate.
  - apply non_increasing_app; [apply IH|apply non_increasing_repeat|].
    intros u w Hu Hw. apply lanes_of_values in Hu. apply repeat_spec in Hw. lia.
Qed.

Lemma lanes_sorted x n : non_increasing (lanes_of 1 x ++ repeat 0 n).
Proof.
  apply non_increasing_app; [apply lanes_of_sorted|apply non_increasing_repeat|].
  intros u w Hu Hw. apply lanes_of_values in Hu. apply repeat_spec in Hw. lia.
Qed.

Lemma descending_true l : non_increasing l -> descending l = true.
Proof.
  induction l as [|a r IH]; intros H; [reflexivity|].
  destruct r as [|b r]; [reflexivity|]. cbn [descending].
  assert (H1 : b <= a) by (apply (H 0%nat 1%nat a b); [lia|reflexivity|reflexivity]).
  rewrite (proj2 (Z.leb_le b a)) by exact H1. apply IH.
  intros i j x y Hij Hx Hy. apply (H (S i) (S j) x y); [lia|exact Hx|exact Hy].
Qed.

(** Counting occurrences pointwise. *)
Lemma count_le : forall l l' k, length l = length l' ->
  (forall i, nth_error l i = Some k -> nth_error l' i = Some k) -> count l k <= count l' k.
Proof.
  induction l as [|a l IH]; intros [|b l'] k HL H; try discriminate HL; [unfold count; simpl; lia|].
  rewrite !count_cons. assert (Hr : count l k <= count l' k).
  { apply IH; [simpl in HL; lia|]. intros i. apply (H (S i)). }
  specialize (H 0%nat). simpl in H. destruct (Z.eq_dec a k) as [->|].
  - specialize (H eq_refl). destruct (Z.eq_dec b k); [lia|congruence].
  - destruct (Z.eq_dec b k); lia.
Qed.

(** Number of positive entries. *)
Definition positives (l : list Z) : Z := Z.of_nat (length (filter (fun j => 0 <? j) l)).

Lemma positives_cons a l : positives (a :: l) = (if 0 <? a then 1 else 0) + positives l.
Proof. unfold positives. simpl. destruct (0 <? a); simpl length; lia. Qed.

Lemma positives_le : forall l l', length l = length l' ->
  (forall i a b, nth_error l i = Some a -> nth_error l' i = Some b -> a <= b) -> positives l <= positives l'.
Proof.
  induction l as [|a l IH]; intros [|b l'] HL H; try discriminate HL; [unfold positives; simpl; lia|].
  rewrite !positives_cons. assert (Hr : positives l <= positives l').
  { apply IH; [simpl in HL; lia|]. intros i. apply (H (S i)). }
  specialize (H 0%nat a b eq_refl eq_refl). destruct (0 <? a) eqn:E1; destruct (0 <? b) eqn:E2; try lia.
Qed.

Lemma positives_app a b : positives (a ++ b) = positives a + positives b.
Proof. unfold positives. rewrite filter_app, app_length. lia. Qed.

Lemma positives_all l : Forall (fun j => 0 < j) l -> positives l = Z.of_nat (length l).
Proof.
  induction 1 as [|a l Ha Hl IH]; [reflexivity|]. rewrite positives_cons, IH.
  rewrite (proj2 (Z.ltb_lt 0 a)) by exact Ha. simpl length. lia.
Qed.

Lemma positives_none n : positives (repeat 0 n) = 0.
Proof. induction n; [reflexivity|]. simpl repeat. rewrite positives_cons, IHn. reflexivity. Qed.

Lemma lanes_positives x n : Forall (fun j => 0 <= j) x -> positives (lanes_of 1 x ++ repeat 0 n) = zsum x.
Proof.
  intros H. rewrite positives_app, positives_none, positives_all; [rewrite lanes_of_length by exact H; lia|].
  apply Forall_forall. intros j Hj. apply lanes_of_values in Hj. lia.
Qed.

(** The collected configuration has as many servers as there are active lanes. *)
Lemma zsum_counts : forall lanes (d : nat), Forall (fun j => 0 <= j <= Z.of_nat d) lanes ->
  zsum (map (fun i => count lanes (Z.of_nat i + 1)) (seq 0 d)) = positives lanes.
Proof.
  intros lanes d H. induction H as [|a r Ha Hr IH].
  - unfold positives. simpl. generalize (seq 0 d). induction l as [|k l IHl]; [reflexivity|]. exact IHl.
  - rewrite positives_cons, <- IH. clear IH.
    assert (G : forall n s, zsum (map (fun i => count (a :: r) (Z.of_nat i + 1)) (seq s n))
      = (if (Z.of_nat s <? a) && (a <=? Z.of_nat (s + n)) then 1 else 0) + zsum (map (fun i => count r (Z.of_nat i + 1)) (seq s n))).
    { induction n as [|n IHn]; intros s.
      - simpl. destruct (Z.of_nat s <? a) eqn:E1; destruct (a <=? Z.of_nat (s + 0)) eqn:E2; try reflexivity.
        apply Z.ltb_lt in E1. apply Z.leb_le in E2. lia.
      - cbn [seq map]. unfold zsum in *. cbn [fold_right]. rewrite IHn, count_cons.
        replace (s + S n)%nat with (S s + n)%nat by lia.
        destruct (Z.eq_dec a (Z.of_nat s + 1)) as [->|Hne].
        + rewrite (proj2 (Z.ltb_ge (Z.of_nat (S s)) (Z.of_nat s + 1))) by lia.
          rewrite (proj2 (Z.ltb_lt (Z.of_nat s) (Z.of_nat s + 1))) by lia.
          rewrite (proj2 (Z.leb_le (Z.of_nat s + 1) (Z.of_nat (S s + n)))) by lia. cbn [andb]. lia.
        + assert (Eb : (Z.of_nat (S s) <? a) = (Z.of_nat s <? a)).
          { apply eq_true_iff_eq. rewrite !Z.ltb_lt. lia. }
          rewrite Eb. lia. }
    rewrite G. simpl Z.of_nat. replace (0 + d)%nat with d by lia.
    destruct (0 <? a) eqn:E; [|reflexivity]. rewrite (proj2 (Z.leb_le a (Z.of_nat d))) by lia. reflexivity.
Qed.

Lemma collect_total d lanes c : 0 <= d -> Forall (fun j => 0 <= j <= d) lanes ->
  collect_config d lanes = Ok c -> zsum c = positives lanes.
Proof.
  intros Hd H Hc. destruct (collect_config_spec d lanes Hd H) as (c' & Hc' & HL & HN).
  assert (c' = c) by congruence. subst c'.
  assert (E : c = map (fun i => count lanes (Z.of_nat i + 1)) (seq 0 (Z.to_nat d))).
  { apply list_ext. intros i. destruct (Nat.lt_ge_cases i (length c)) as [Hi|Hi].
    - rewrite HN by exact Hi. rewrite nth_error_map.
      rewrite (nth_error_nth' _ 0%nat) by (rewrite seq_length; lia). rewrite seq_nth by lia. reflexivity.
    - rewrite !(proj2 (nth_error_None _ _)); [reflexivity| |exact Hi]. rewrite map_length, seq_length. lia. }
  rewrite E. apply zsum_counts. rewrite Z2Nat.id by exact Hd. exact H.
Qed.

Lemma build_lanes_ordered (x : list Z) bound lanes : Forall (fun j => 0 <= j) x -> zsum x <= bound ->
  build_lanes x (Z.of_nat (length x)) bound = Ok lanes ->
  Z.of_nat (length lanes) = bound /\ non_increasing lanes.
Proof.
  intros Hx Hb E. rewrite (build_lanes_spec x bound Hx Hb) in E.
  assert (lanes = lanes_of 1 x ++ repeat 0 (Z.to_nat (bound - zsum x))) by congruence. subst lanes.
  split; [|apply lanes_sorted]. rewrite app_length, Nat2Z.inj_add, (lanes_of_length 1 x Hx), repeat_length. lia.
Qed.

Lemma slo_lb_rejects minimize hit sched w p t m randomized :
  w <> 0 -> slo_lb minimize hit sched w p t m randomized = Err UnsupportedPredictionWindow.
Proof. intros H. unfold slo_lb. apply Z.eqb_neq in H. rewrite H. reflexivity. Qed.
