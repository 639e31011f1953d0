(** Proofs about dual norms and the Mahalanobis distance. *)
From Coq Require Import Lia Lqa Qabs.
From Verif Require Import NumLemmas OptimizeProofs DescentProofs NormSpec NormProofs.
From Verif Require Import ProblemModel CostModel.
Local Open Scope Z_scope.

Lemma ndot_value x : forall z, length z = length x ->
  exists q, ndot (map Num x) z = Ok (Num q) /\ (q == inner x z)%Q.
Proof.
  induction x as [|a x IH]; intros [|j z] H; try discriminate H.
  - exists 0%Q. split; reflexivity.
  - destruct (IH z) as (q & E & Hq); [simpl in H; lia|]. cbn [map ndot nscale obind]. rewrite E. cbn [obind nadd].
    eexists. split; [reflexivity|]. unfold inner. cbn [length]. rewrite sum_below_S. cbn [nth]. rewrite Hq. unfold inner. ring.
Qed.
Lemma inner_comp x y z : Forall2 Qeq y z -> (inner x y == inner x z)%Q.
Proof. intros H. apply sum_below_ext. intros i _. rewrite (nth_comp y z i H). reflexivity. Qed.
Lemma forallb_Num x : forallb finite (map Num x) = true.
Proof. induction x; simpl; auto. Qed.
Lemma ap_zeros n : map apply_precision (repeat 0%Q n) = repeat (apply_precision 0) n.
Proof. induction n; simpl; congruence. Qed.

Section Dual.
  Variable r : Q.
  Variable nlopt : nl_problem -> outcome nl_result.
  Hypothesis Hex : exact_maximizer r nlopt.

  Lemma dual_best n norm N x : length x = n -> computes n norm N -> respects_eq Qeq N ->
    (forall z, grid_vector n z -> (N z <= 1 + (1 # 1000))%Q -> Forall (fun j => Qabs j <= r)%Q z) ->
    (N (repeat 0%Q n) <= 1)%Q ->
    exists q y, dual_norm nlopt norm (map Num x) = Ok (Num q) /\
      grid_vector n y /\ (N y <= 1 + (1 # 1000))%Q /\ (q == inner x y)%Q /\
      forall z, grid_vector n z -> (N z <= 1)%Q -> (inner x z <= q)%Q.
  Proof.
    intros Hx HN Hc Hr H0. unfold dual_norm. rewrite forallb_Num. unfold find_unbounded_maximizer, optimize.
    rewrite !repeat_length, map_length, Nat.eqb_refl. cbn [obind length map].
    set (c := fun z : list Q => do k <- norm z; Ok (Num (k - 1))). set (f := fun z : list Q => ndot (map Num x) z).
    assert (forall z, length z = n -> exists k, evaluate c z = Ok (Num (k - 1)) /\ (k == N (map apply_precision z))%Q) as Ec.
    { intros z Hz. destruct (HN (map apply_precision z)) as (k & E & Hk); [rewrite map_length; exact Hz|].
      exists k. unfold evaluate, c. rewrite E. auto. }
    assert (forall z, length z = n -> exists q, evaluate f z = Ok (Num q) /\ (q == inner x (map apply_precision z))%Q) as Ef.
    { intros z Hz. apply ndot_value. rewrite map_length. lia. }
    assert (forall z t, length z = n -> (satisfies [evaluate c] z t <-> (N (map apply_precision z) <= 1 + t)%Q)) as Es.
    { intros z t Hz. destruct (Ec z Hz) as (k & E & Hk). unfold satisfies. split.
      - intros H. inversion H as [|? ? (v & Ev & Lv) _]; subst. rewrite E in Ev. injection Ev as <-. simpl in Lv. lra.
      - intros H. constructor; [|constructor]. exists (Num (k - 1)). split; [exact E|]. simpl. lra. }
    rewrite Hx.
    destruct (Hex (choose_algorithm 1) (evaluate f) n [evaluate c] (repeat 0%Q n)) as (s & v & y & E & S1 & S2 & Hy & Ev & Sy & Best).
    - right. reflexivity.
    - apply repeat_length.
    - intros g [<-|[<-|[]]] z; unfold evaluate; rewrite map_ap_idem; reflexivity.
    - intros g [<-|[<-|[]]] z Hz.
      + destruct (Ef z Hz) as (q & E & _). eauto.
      + destruct (Ec z Hz) as (q & E & _). eauto.
    - exists (repeat 0%Q n). split; [apply repeat_length|]. apply Es; [apply repeat_length|].
      rewrite ap_zeros. rewrite (Hc _ (repeat 0%Q n)); [lra|]. clear. induction n; simpl; constructor; auto. reflexivity.
    - intros z Hz Sz. apply Es in Sz; [|exact Hz].
      apply (proj1 (Forall_map apply_precision (fun j => Qabs j <= r)%Q z)). apply Hr; [|exact Sz].
      split; [rewrite map_length; exact Hz|apply map_ap_hundredths].
    - rewrite E. cbn [obind].
      assert (exists q, ndot (map Num x) (map apply_precision y) = Ok (Num q) /\ v = Num q /\ (q == inner x (map apply_precision y))%Q) as (q & Eq & -> & Hq).
      { destruct (Ef y Hy) as (q & E1 & E2). unfold evaluate, f in E1, Ev. exists q. rewrite E1 in Ev. injection Ev as <-. auto. }
      exists q, (map apply_precision y). apply Es in Sy; [|exact Hy].
      split; [destruct s; try congruence; cbn [obind fst]; exact Eq|].
      split; [split; [rewrite map_length; exact Hy|apply map_ap_hundredths]|]. split; [exact Sy|]. split; [exact Hq|].
      intros z (Hz & Gz) Nz. destruct (Ef z Hz) as (w & Ew & Hw).
      assert (Forall2 Qeq (map apply_precision z) z) as Ez by (apply map_ap_eq; exact Gz).
      specialize (Best z (Num w) Hz). assert (w <= q)%Q as L.
      { apply Best; [|exact Ew]. apply Es; [exact Hz|]. rewrite (Hc _ z Ez). lra. }
      rewrite Hw, (inner_comp x _ _ Ez) in L. exact L.
  Qed.
End Dual.

(** ** Manhattan and maximum norm *)
Lemma abs_hundredths q : hundredths q -> hundredths (Qabs q).
Proof. intros [z Hz]. exists (Z.abs z). rewrite Hz. reflexivity. Qed.
Lemma sum_hundredths n f : (forall i, (i < n)%nat -> hundredths (f i)) -> hundredths (sum_below n f).
Proof.
  revert f. induction n as [|n IH]; intros f H; [exists 0; reflexivity|].
  destruct (H O ltac:(lia)) as [a Ha]. destruct (IH (fun i => f (S i))) as [b Hb]; [intros; apply H; lia|].
  exists (a + b). rewrite sum_below_S, Ha, Hb. unfold Qeq. simpl. lia.
Qed.
Lemma nth_hundredths z i : Forall hundredths z -> (i < length z)%nat -> hundredths (nth i z 0%Q).
Proof. intros H Hi. rewrite Forall_forall in H. apply H, nth_In, Hi. Qed.

(** The largest absolute value. *)
Fixpoint max_abs (x : list Q) : Q :=
  match x with [] => 0%Q | j :: r => if Qle_bool (max_abs r) (Qabs j) then Qabs j else max_abs r end.
Lemma max_abs_ge x i : (Qabs (nth i x 0%Q) <= max_abs x)%Q.
Proof.
  revert i. induction x as [|j x IH]; intros i; [destruct i; simpl; discriminate|]. cbn [max_abs].
  destruct (Qle_bool (max_abs x) (Qabs j)) eqn:E.
  - apply Qle_bool_iff in E. destruct i as [|i]; cbn [nth]; [lra|]. pose proof (IH i). lra.
  - assert (Qabs j < max_abs x)%Q. { apply Qnot_le_lt. intros L. apply Qle_bool_iff in L. congruence. }
    destruct i as [|i]; cbn [nth]; [lra|apply IH].
Qed.
Lemma max_abs_nonneg x : (0 <= max_abs x)%Q.
Proof. eapply Qle_trans; [apply Qabs_nonneg|exact (max_abs_ge x O)]. Qed.
Lemma max_abs_in x : x <> [] -> exists i, (i < length x)%nat /\ max_abs x = Qabs (nth i x 0%Q).
Proof.
  induction x as [|j x IH]; [congruence|]. intros _. cbn [max_abs]. destruct (Qle_bool (max_abs x) (Qabs j)) eqn:E.
  - exists O. split; [simpl; lia|reflexivity].
  - destruct x as [|k x]. { simpl in E. pose proof (Qabs_nonneg j) as H. apply Qle_bool_iff in H. congruence. }
    destruct IH as (i & Hi & Ei); [discriminate|]. exists (S i). split; [simpl in *; lia|exact Ei].
Qed.

(** The unit vector with entry [s] at [i]. *)
Definition unit_vec (n i : nat) (s : Q) : list Q := map (fun k => if (k =? i)%nat then s else 0%Q) (seq 0 n).
Lemma sum_unit n i (F : nat -> Q) : (i < n)%nat ->
  (sum_below n (fun k => if (k =? i)%nat then F k else 0) == F i)%Q.
Proof.
  revert i F. induction n as [|n IH]; intros i F Hi; [lia|]. rewrite sum_below_S. destruct i as [|i]; cbn [Nat.eqb].
  - rewrite sum_below_const0. ring.
  - rewrite (IH i (fun k => F (S k))) by lia. ring.
Qed.

Lemma manhattan_unit n N : (forall x, length x = n -> (N x == sum_below n (fun i => Qabs (nth i x 0)))%Q) ->
  forall i s, (i < n)%nat -> (N (unit_vec n i s) == Qabs s)%Q.
Proof.
  intros HN i s Hi. rewrite HN by (unfold unit_vec; apply vec_length).
  rewrite (sum_below_ext n _ (fun k => if (k =? i)%nat then Qabs s else 0)%Q).
  - exact (sum_unit n i (fun _ => Qabs s) Hi).
  - intros k Hk. unfold unit_vec. rewrite nth_vec by exact Hk. destruct (k =? i)%nat; reflexivity.
Qed.
Lemma inner_unit n x i s : length x = n -> (i < n)%nat -> (inner x (unit_vec n i s) == nth i x 0 * s)%Q.
Proof.
  intros Hx Hi. unfold inner. rewrite Hx. rewrite (sum_below_ext n _ (fun k => if (k =? i)%nat then nth k x 0 * s else 0)%Q).
  - exact (sum_unit n i (fun k => nth k x 0 * s)%Q Hi).
  - intros k Hk. unfold unit_vec. rewrite nth_vec by exact Hk. destruct (k =? i)%nat; ring.
Qed.

Lemma sum_abs_nonneg x n : (0 <= sum_below n (fun i => Qabs (nth i x 0)))%Q.
Proof. apply sum_below_nonneg. intros. apply Qabs_nonneg. Qed.
Lemma sum_abs_zeros n m : (sum_below n (fun i => Qabs (nth i (repeat 0 m) 0)) == 0)%Q.
Proof.
  rewrite (sum_below_ext n _ (fun _ => 0%Q)); [apply sum_below_const0|]. intros i _.
  assert (nth i (repeat 0%Q m) 0%Q = 0%Q) as ->; [|reflexivity].
  revert i. induction m; intros [|i]; simpl; auto.
Qed.
(** A vector of small Manhattan norm: [|x . y| <= max |x_i| * sum |y_i|]. *)
Lemma holder x y : (inner x y <= max_abs x * sum_below (length x) (fun i => Qabs (nth i y 0)))%Q.
Proof.
  rewrite <- sum_below_scale. apply sum_below_le. intros i _.
  pose proof (Qle_Qabs (nth i x 0%Q * nth i y 0%Q)) as H. rewrite Qabs_Qmult in H.
  pose proof (Qmult_le_compat_r _ _ (Qabs (nth i y 0%Q)) (max_abs_ge x i) (Qabs_nonneg _)). lra.
Qed.

Lemma dual_manhattan r nlopt : exact_maximizer r nlopt -> (1 <= r)%Q ->
  forall x, exists q, dual_norm nlopt manhattan (map Num x) = Ok (Num q) /\
    (forall i, (Qabs (nth i x 0) <= q)%Q) /\
    (x <> [] -> exists i, (i < length x)%nat /\ (q == Qabs (nth i x 0))%Q) /\ (x = [] -> (q == 0)%Q).
Proof.
  intros Hex Hr x. set (n := length x). destruct (manhattan_spec n) as (N & HN & _ & HV).
  destruct (dual_best r nlopt Hex n manhattan (fun x => sum_below n (fun i => Qabs (nth i x 0))%Q) x) as (q & y & E & Gy & Ny & Hq & Best).
  - reflexivity.
  - intros z Hz. destruct (HN z Hz) as (k & E & Hk). exists k. split; [exact E|]. rewrite Hk. apply HV. exact Hz.
  - intros z z' Hz. apply sum_below_ext. intros i _. rewrite (nth_comp z z' i Hz). reflexivity.
  - intros z (Lz & Gz) Hz. assert (hundredths (sum_below n (fun i => Qabs (nth i z 0))%Q)) as [k Hk].
    { apply sum_hundredths. intros i Hi. apply abs_hundredths, nth_hundredths; [exact Gz|lia]. }
    assert (sum_below n (fun i => Qabs (nth i z 0)) <= 1)%Q as L.
    { rewrite Hk in *. assert (k <= 100); [|unfold Qle; simpl; lia]. unfold Qle in Hz. simpl in Hz. lia. }
    apply Forall_forall. intros j Hj. apply (In_nth _ _ 0%Q) in Hj as (i & Hi & <-).
    pose proof (sum_below_term n (fun i => Qabs (nth i z 0))%Q i (fun i _ => Qabs_nonneg _) ltac:(lia)) as T. cbv beta in T. lra.
  - rewrite sum_abs_zeros. lra.
  - exists q. split; [exact E|]. destruct Gy as (Ly & Gy).
    assert (sum_below n (fun i => Qabs (nth i y 0)) <= 1)%Q as L.
    { destruct (sum_hundredths n (fun i => Qabs (nth i y 0))%Q) as [k Hk].
      { intros i Hi. apply abs_hundredths, nth_hundredths; [exact Gy|lia]. }
      rewrite Hk in *. assert (k <= 100); [|unfold Qle; simpl; lia]. unfold Qle in Ny. simpl in Ny. lia. }
    assert (q <= max_abs x)%Q as Up.
    { rewrite Hq. eapply Qle_trans; [apply holder|]. fold n. pose proof (max_abs_nonneg x) as M.
      pose proof (mul_le_l (max_abs x) _ _ M L). lra. }
    assert (forall i, (i < n)%nat -> (Qabs (nth i x 0) <= q)%Q) as Lo.
    { intros i Hi. set (s := if Qle_bool 0 (nth i x 0%Q) then 1%Q else (-(1))%Q).
      assert (hundredths s /\ (Qabs s == 1)%Q /\ (nth i x 0 * s == Qabs (nth i x 0))%Q) as (S1 & S2 & S3).
      { unfold s. destruct (Qle_bool 0 (nth i x 0%Q)) eqn:B.
        - apply Qle_bool_iff in B. split; [exists 100; reflexivity|]. split; [reflexivity|]. rewrite Qabs_pos by exact B. ring.
        - split; [exists (-100); reflexivity|]. split; [reflexivity|]. rewrite Qabs_neg; [ring|].
          apply Qlt_le_weak, Qnot_le_lt. intros B'. apply Qle_bool_iff in B'. congruence. }
      rewrite <- S3, <- (inner_unit n x i s eq_refl Hi). apply Best.
      - split; [unfold unit_vec; apply vec_length|]. apply Forall_forall. intros j Hj. unfold unit_vec in Hj.
        apply in_map_iff in Hj as (k & <- & _). destruct (k =? i)%nat; [exact S1|exists 0; reflexivity].
      - rewrite <- HV by (unfold unit_vec; apply vec_length). pose proof (manhattan_unit n N HV i s Hi) as U. rewrite U, S2. apply Qle_refl. }
    split; [|split].
    + intros i. destruct (Nat.lt_ge_cases i n) as [Hi|Hi]; [apply Lo, Hi|]. rewrite nth_overflow by exact Hi.
      destruct x as [|j x]; [rewrite Hq; discriminate|]. eapply Qle_trans; [|apply (Lo O); unfold n; simpl; lia]. apply Qabs_nonneg.
    + intros Hx. destruct (max_abs_in x Hx) as (i & Hi & Ei). exists i. split; [exact Hi|]. rewrite <- Ei.
      specialize (Lo i Hi). rewrite <- Ei in Lo. lra.
    + intros ->. rewrite Hq. reflexivity.
Qed.

(** Infinite vectors. *)
Lemma dual_infinite nlopt norm x : ~ Forall (fun a => finite a = true) x -> dual_norm nlopt norm x = Ok PosInf.
Proof.
  intros H. unfold dual_norm. destruct (forallb finite x) eqn:E; [|reflexivity].
  contradict H. apply Forall_forall. rewrite forallb_forall in E. exact E.
Qed.

(** ** The Euclidean norm *)

(** [t] cut off after two digits. *)
Definition cut (t : Q) : Q :=
  if Qle_bool 0 t then (Qfloor (100 * t) # 100)%Q else (- (Qfloor (- (100 * t)) # 100))%Q.
Lemma cut_hundredths t : hundredths (cut t).
Proof.
  unfold cut. destruct (Qle_bool 0 t); [eexists; reflexivity|]. exists (- Qfloor (- (100 * t))). reflexivity.
Qed.
Lemma cut_spec t : (Qabs (cut t) <= Qabs t /\ Qabs (t - cut t) <= 1 # 100)%Q.
Proof.
  unfold cut. destruct (Qle_bool 0 t) eqn:B.
  - apply Qle_bool_iff in B. destruct (floor_bounds (100 * t)) as [F1 F2]. set (k := Qfloor (100 * t)) in *.
    assert (0 <= k) as Hk.
    { destruct (Z_lt_le_dec k 0) as [L|L]; [|exact L]. assert (inject_Z k + 1 <= 0)%Q; [|lra].
      assert (inject_Z k <= inject_Z (-1))%Q by (rewrite <- Zle_Qle; lia). change (inject_Z (-1)) with (-(1))%Q in *. lra. }
    rewrite hundredth. assert (0 <= inject_Z k)%Q by (change 0%Q with (inject_Z 0); rewrite <- Zle_Qle; lia).
    split; [rewrite !Qabs_pos by lra; lra|]. apply Qabs_Qle_condition. split; lra.
  - assert (t < 0)%Q as L. { apply Qnot_le_lt. intros L. apply Qle_bool_iff in L. congruence. }
    destruct (floor_bounds (- (100 * t))) as [F1 F2]. set (k := Qfloor (- (100 * t))) in *.
    assert (0 <= k) as Hk.
    { destruct (Z_lt_le_dec k 0) as [L'|L']; [|exact L']. assert (inject_Z k + 1 <= 0)%Q; [|lra].
      assert (inject_Z k <= inject_Z (-1))%Q by (rewrite <- Zle_Qle; lia). change (inject_Z (-1)) with (-(1))%Q in *. lra. }
    rewrite hundredth. assert (0 <= inject_Z k)%Q by (change 0%Q with (inject_Z 0); rewrite <- Zle_Qle; lia).
    split; [rewrite !Qabs_neg by lra; lra|]. apply Qabs_Qle_condition. split; lra.
Qed.
Lemma abs_sq a b : (Qabs a <= Qabs b -> a * a <= b * b)%Q.
Proof.
  intros H. pose proof (Qabs_nonneg a). assert (Qabs a * Qabs a <= Qabs b * Qabs b)%Q by nra.
  rewrite <- !Qabs_Qmult in *. rewrite !Qabs_pos in * by apply sq0. assumption.
Qed.

Lemma dual_euclidean r nlopt e sqrt : exact_maximizer r nlopt ->
  (0 <= e)%Q -> sqrt_within e sqrt -> (forall a b, (a == b)%Q -> (sqrt a == sqrt b)%Q) ->
  (forall q, (0 <= q <= 1)%Q -> (sqrt q <= 1)%Q) -> (1 + (1 # 1000) + e <= r)%Q ->
  forall x, let S := sum_below (length x) (fun i => nth i x 0 * nth i x 0)%Q in
  exists q, dual_norm nlopt (euclidean_norm sqrt) (map Num x) = Ok (Num q) /\
    (q * q <= (1 + (1 # 1000) + e) * (1 + (1 # 1000) + e) * S)%Q /\
    (S <= (q + (1 # 100) * sum_below (length x) (fun i => Qabs (nth i x 0))) * (sqrt S + e))%Q.
Proof.
  intros Hex He Hs Hc H1 Hr x S. set (n := length x) in *.
  set (N := fun z => sqrt (sum_below n (fun i => nth i z 0 * nth i z 0)%Q)).
  set (Sq := fun z => sum_below n (fun i => nth i z 0 * nth i z 0)%Q).
  assert (forall z, (0 <= Sq z)%Q) as Sq0 by (intros; apply sum_below_nonneg; intros; apply sq0).
  assert (forall z, (N z <= 1 + (1 # 1000))%Q -> (Sq z <= (1 + (1 # 1000) + e) * (1 + (1 # 1000) + e))%Q) as Ball.
  { intros z Hz. destruct (Hs (Sq z) (Sq0 z)) as (Z0 & _ & Z2). change (sqrt (Sq z)) with (N z) in *.
    eapply Qle_trans; [exact Z2|]. assert (0 <= N z + e)%Q by lra. assert (N z + e <= 1 + (1 # 1000) + e)%Q by lra. nra. }
  destruct (dual_best r nlopt Hex n (euclidean_norm sqrt) N x) as (q & y & E & (Ly & Gy) & Ny & Hq & Best).
  - reflexivity.
  - exact (euclid_computes sqrt Hc n).
  - intros z z' Hz. apply Hc. apply sum_below_ext. intros i _. rewrite (nth_comp z z' i Hz). reflexivity.
  - intros z (Lz & _) Nz. apply Forall_forall. intros j Hj. apply (In_nth _ _ 0%Q) in Hj as (i & Hi & <-).
    apply Ball in Nz. pose proof (sum_below_term n (fun i => nth i z 0 * nth i z 0)%Q i (fun i _ => sq0 _) ltac:(lia)) as T.
    cbv beta in T. fold (Sq z) in T. eapply Qle_trans; [|exact Hr]. apply Qle_sq; [lra|].
    rewrite <- Qabs_Qmult, Qabs_pos by apply sq0. lra.
  - apply H1. split; [apply (Sq0 (repeat 0%Q n))|]. rewrite (sum_below_ext n _ (fun _ => 0%Q)).
    + rewrite sum_below_const0. discriminate.
    + intros i _. assert (nth i (repeat 0%Q n) 0%Q = 0%Q) as ->; [|reflexivity].
      generalize n. intros m. revert i. induction m; intros [|i]; simpl; auto.
  - exists q. split; [exact E|]. split.
    + rewrite Hq. unfold inner. fold n. eapply Qle_trans; [exact (cauchy_sum n (fun i => nth i x 0%Q) (fun i => nth i y 0%Q))|]. cbv beta.
      change (S * Sq y <= (1 + (1 # 1000) + e) * (1 + (1 # 1000) + e) * S)%Q.
      eapply Qle_trans; [apply (mul_le_l S _ _ (Sq0 x) (Ball y Ny))|]. apply Qle_lteq. right. ring.
    + destruct (Hs S (Sq0 x)) as (Z0 & _ & Z2). set (rho := (sqrt S + e)%Q) in *. assert (0 <= rho)%Q by (unfold rho; lra).
      destruct (Qlt_le_dec 0 rho) as [P|P].
      2:{ assert (rho == 0)%Q as R by lra. rewrite R in *. pose proof (Sq0 x). fold S in H0. lra. }
      set (z := map (fun i => cut (nth i x 0%Q / rho)) (seq 0 n)).
      assert (0 < / rho)%Q as Pi by (apply Qinv_lt_0_compat; exact P).
      assert (grid_vector n z) as Gz.
      { split; [apply vec_length|]. apply Forall_forall. intros j Hj. apply in_map_iff in Hj as (i & <- & _). apply cut_hundredths. }
      assert (N z <= 1)%Q as Nz.
      { apply H1. split; [apply (Sq0 z)|].
        assert (sum_below n (fun i => nth i z 0 * nth i z 0) <= (/ rho * / rho) * S)%Q as L.
        { unfold S. rewrite <- sum_below_scale. apply sum_below_le. intros i Hi. unfold z. rewrite nth_vec by exact Hi.
          destruct (cut_spec (nth i x 0%Q / rho)) as [C1 _]. apply abs_sq in C1. eapply Qle_trans; [exact C1|].
          unfold Qdiv. apply Qle_lteq. right. ring. }
        eapply Qle_trans; [exact L|]. assert (0 <= / rho * / rho)%Q as P2 by apply sq0.
        pose proof (mul_le_l _ _ _ P2 Z2) as L2. eapply Qle_trans; [exact L2|].
        apply Qle_lteq. right. field. lra. }
      specialize (Best z Gz Nz).
      set (one := sum_below n (fun i => Qabs (nth i x 0))%Q) in *.
      assert (S <= (inner x z + (1 # 100) * one) * rho)%Q as L.
      { assert (S * / rho <= inner x z + (1 # 100) * one)%Q as L.
        { unfold S, one, inner. fold n. rewrite (Qmult_comm _ (/ rho)), <- !sum_below_scale, <- sum_below_plus. apply sum_below_le.
          intros i Hi. unfold z. rewrite nth_vec by exact Hi. destruct (cut_spec (nth i x 0%Q / rho)) as [_ C2].
          set (c := cut (nth i x 0%Q / rho)) in *. set (a := nth i x 0%Q) in *.
          assert (a * (a / rho - c) <= Qabs a * (1 # 100))%Q as La.
          { eapply Qle_trans; [apply Qle_Qabs|]. rewrite Qabs_Qmult. apply mul_le_l; [apply Qabs_nonneg|exact C2]. }
          unfold Qdiv in La. lra. }
        apply (Qmult_le_compat_r _ _ rho) in L; [|lra]. setoid_replace (S * / rho * rho)%Q with S in L by (field; lra). exact L. }
      eapply Qle_trans; [exact L|]. apply Qmult_le_compat_r; lra.
Qed.

(** ** Mahalanobis distance *)
Lemma config_dot_inner x : forall y, length y = length x -> (config_dot x y == inner x y)%Q.
Proof.
  induction x as [|a x IH]; intros [|b y] H; try discriminate H; [reflexivity|].
  unfold config_dot, inner in *. cbn [combine map length fst snd]. rewrite Qsum_cons, sum_below_S. cbn [nth].
  rewrite <- IH by (simpl in H; lia). reflexivity.
Qed.
Lemma matrix_times_ok n m v : Forall (fun r => length r = n) m -> length v = n ->
  exists w, matrix_times m v = Ok w /\ maps_to m v w.
Proof.
  intros Hm Hv. induction Hm as [|r m Hr Hm (w & E & L & W)].
  - exists []. split; [reflexivity|]. split; [reflexivity|]. simpl. lia.
  - unfold matrix_times in *. cbn [omap]. unfold row_times at 1. rewrite Hr, Hv, Nat.eqb_refl. cbn [obind]. rewrite E. cbn [obind].
    eexists. split; [reflexivity|]. split; [simpl; lia|]. intros [|i] Hi; cbn [nth].
    + apply config_dot_inner. lia.
    + apply W. simpl in Hi. lia.
Qed.
Lemma minus_nth x : forall y, length y = length x -> length (minus x y) = length x /\
  forall i, (nth i (minus x y) 0 == nth i x 0 - nth i y 0)%Q.
Proof.
  induction x as [|a x IH]; intros [|b y] H; try discriminate H.
  - split; [reflexivity|]. intros [|i]; reflexivity.
  - destruct (IH y) as (L & N); [simpl in H; lia|]. change (minus (a :: x) (b :: y)) with ((a - b)%Q :: minus x y).
    split; [simpl; lia|]. intros [|i]; [reflexivity|apply N].
Qed.
Lemma inner_comp2 x y x' y' : length x = length x' -> (forall i, nth i x 0 == nth i x' 0)%Q -> (forall i, nth i y 0 == nth i y' 0)%Q ->
  (inner x y == inner x' y')%Q.
Proof. intros L H1 H2. unfold inner. rewrite <- L. apply sum_below_ext. intros i _. rewrite H1, H2. reflexivity. Qed.
Lemma inner_sym x y : length x = length y -> (inner x y == inner y x)%Q.
Proof. intros L. unfold inner. rewrite L. apply sum_below_ext. intros. ring. Qed.

Section Mahalanobis.
  Variable n : nat.
  Variable inverse : matrix -> option matrix.
  Variable q : matrix.
  Variable mean : list Q.
  Hypothesis Hq : square n q.
  Hypothesis Hi : inverts n inverse q.
  Hypothesis Hm : length mean = n.

  Lemma maps_zero v : length v = n -> is_zero v -> maps_to q v (repeat 0%Q n).
  Proof.
    intros Lv Hz. destruct Hq as (Lq & _). split; [rewrite repeat_length; auto|]. intros i Hi'.
    assert (nth i (repeat 0%Q n) 0%Q = 0%Q) as -> by (generalize n as m; intros m; revert i Hi'; induction m; intros [|i] Hi'; simpl; auto; apply IHm; lia).
    unfold inner. symmetry. rewrite (sum_below_ext _ _ (fun _ => 0%Q)); [apply sum_below_const0|]. intros k _. rewrite (Hz k). ring.
  Qed.

  Lemma mahalanobis_ok b : inverse q = Some b ->
    exists f, mahalanobis inverse q mean = Ok f /\
    forall x, length x = n -> exists k v, f x = Ok k /\ length v = n /\ maps_to q v (minus x mean) /\ (k == inner v (minus x mean))%Q.
  Proof.
    intros Eb. unfold mahalanobis. rewrite Eb. eexists. split; [reflexivity|]. intros x Hx.
    unfold inverts in Hi. rewrite Eb in Hi. destruct Hi as ((Lb & Fb) & Inv). set (d := minus x mean).
    assert (length d = n) as Ld by (unfold d; destruct (minus_nth x mean) as [L _]; lia).
    destruct (matrix_times_ok n b d Fb Ld) as (v & Ev & Mv). cbv zeta. rewrite Ev. cbn [obind].
    assert (length v = n) as Lv by (destruct Mv; lia).
    unfold row_times. rewrite Ld, Lv, Nat.eqb_refl. exists (config_dot d v), v.
    split; [reflexivity|]. split; [exact Lv|]. split; [apply Inv; auto|].
    rewrite config_dot_inner by lia. apply inner_sym. lia.
  Qed.
  (** The preimage is unique. *)
  Lemma preimage_unique b v v' w : inverse q = Some b -> length v = n -> length v' = n -> length w = n ->
    maps_to q v w -> maps_to q v' w -> forall i, (nth i v 0 == nth i v' 0)%Q.
  Proof.
    intros Eb Lv Lv' Lw H H' i. unfold inverts in Hi. rewrite Eb in Hi. destruct Hi as ((Lb & _) & Inv).
    apply Inv in H as [_ H]; auto. apply Inv in H' as [_ H']; auto.
    destruct (Nat.lt_ge_cases i n) as [I|I]; [rewrite H, H' by lia; reflexivity|].
    rewrite !nth_overflow by lia. reflexivity.
  Qed.

  Lemma mahalanobis_spec :
    (mahalanobis inverse q mean = Err MatrixMustBeInvertible /\ singular n q) \/
    (~ singular n q /\ exists f, mahalanobis inverse q mean = Ok f /\
     forall x, length x = n -> exists k, f x = Ok k /\
       (exists v, length v = n /\ maps_to q v (minus x mean)) /\
       (forall v, length v = n -> maps_to q v (minus x mean) -> (k == inner v (minus x mean))%Q) /\
       (semidefinite n q -> (0 <= k)%Q) /\
       (definite n q -> ((k == 0)%Q <-> forall i, (nth i x 0 == nth i mean 0)%Q))).
  Proof.
    destruct (inverse q) as [b|] eqn:Eb.
    - right. split.
      { intros (v & Lv & Nz & Mv). apply Nz. intros i.
        rewrite (preimage_unique b v (repeat 0%Q n) (repeat 0%Q n) Eb Lv ltac:(apply repeat_length) ltac:(apply repeat_length) Mv).
        - assert (nth i (repeat 0%Q n) 0%Q = 0%Q) as ->; [|reflexivity]. generalize n as m. intros m. revert i. induction m; intros [|i]; simpl; auto.
        - apply maps_zero; [apply repeat_length|]. intros j.
          assert (nth j (repeat 0%Q n) 0%Q = 0%Q) as ->; [|reflexivity]. generalize n as m. intros m. revert j. induction m; intros [|j]; simpl; auto. }
      destruct (mahalanobis_ok b Eb) as (f & Ef & Hf). exists f. split; [exact Ef|]. intros x Hx.
      destruct (Hf x Hx) as (k & v & Ek & Lv & Mv & Hk). exists k. split; [exact Ek|]. split; [eauto|].
      destruct (minus_nth x mean) as [Ld Nd]; [lia|].
      assert (forall v', length v' = n -> maps_to q v' (minus x mean) -> (k == inner v' (minus x mean))%Q) as Any.
      { intros v' Lv' Mv'. rewrite Hk. apply inner_comp2; [lia| |reflexivity].
        apply (preimage_unique b v v' (minus x mean) Eb); auto. lia. }
      split; [exact Any|]. split.
      + intros Pos. rewrite Hk. apply (Pos v (minus x mean)); [exact Lv|lia|exact Mv].
      + intros Pos. split.
        * intros K0 i. assert (is_zero v) as Zv.
          { intros j. destruct (Qeq_dec (nth j v 0%Q) 0) as [Z|Z]; [exact Z|]. exfalso.
            assert (0 < inner v (minus x mean))%Q; [|lra]. apply (Pos v (minus x mean)); [exact Lv|lia|exact Mv|]. intros Zv. apply Z, Zv. }
          pose proof (maps_zero v Lv Zv) as Mz.
          assert (nth i (minus x mean) 0 == 0)%Q as D0.
          { destruct (Nat.lt_ge_cases i n) as [I|I].
            - destruct Mv as [LM Mv]. destruct Mz as [_ Mz]. destruct Hq as [Lq _]. rewrite Mv by lia. rewrite <- Mz by lia.
              assert (nth i (repeat 0%Q n) 0%Q = 0%Q) as ->; [|reflexivity]. generalize n as m. intros m. clear. revert i. induction m; intros [|i]; simpl; auto.
            - rewrite nth_overflow by lia. reflexivity. }
          rewrite Nd in D0. lra.
        * intros Eq. assert (is_zero (minus x mean)) as Zd by (intros i; rewrite Nd, Eq; ring).
          rewrite Hk. unfold inner. rewrite (sum_below_ext _ _ (fun _ => 0%Q)); [apply sum_below_const0|].
          intros j _. rewrite (Zd j). ring.
    - left. unfold mahalanobis. rewrite Eb. split; [reflexivity|]. unfold inverts in Hi. rewrite Eb in Hi. exact Hi.
  Qed.
End Mahalanobis.
