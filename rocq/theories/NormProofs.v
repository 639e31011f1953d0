(** Proofs about norms. *)
From Coq Require Import Lia Lqa Qabs.
From Verif Require Import NumLemmas OptimizeProofs DescentProofs NormSpec.
From Verif Require Import ProblemModel CostModel.
Local Open Scope Z_scope.

Lemma nth_vec (f : nat -> Q) n i : (i < n)%nat -> nth i (map f (seq 0 n)) 0%Q = f i.
Proof.
  intros H. rewrite (nth_indep _ 0%Q (f O)) by (rewrite map_length, seq_length; exact H).
  rewrite map_nth, seq_nth by exact H. reflexivity.
Qed.
Lemma vec_length (f : nat -> Q) n : length (map f (seq 0 n)) = n.
Proof. rewrite map_length, seq_length. reflexivity. Qed.

Lemma sum_below_nonneg n f : (forall i, (i < n)%nat -> (0 <= f i)%Q) -> (0 <= sum_below n f)%Q.
Proof.
  revert f. induction n as [|n IH]; intros f H; [unfold sum_below; simpl; lra|].
  rewrite sum_below_S. pose proof (H O ltac:(lia)). specialize (IH (fun i => f (S i))).
  assert (0 <= sum_below n (fun i => f (S i)))%Q by (apply IH; intros; apply H; lia). lra.
Qed.
Lemma sum_below_zero n f : (forall i, (i < n)%nat -> (0 <= f i)%Q) -> (sum_below n f == 0)%Q ->
  forall i, (i < n)%nat -> (f i == 0)%Q.
Proof.
  revert f. induction n as [|n IH]; intros f H E i Hi; [lia|]. rewrite sum_below_S in E.
  pose proof (H O ltac:(lia)). assert (0 <= sum_below n (fun i => f (S i)))%Q by (apply sum_below_nonneg; intros; apply H; lia).
  destruct i as [|i]; [lra|]. apply (IH (fun i => f (S i))); [intros; apply H; lia|lra|lia].
Qed.
Lemma sum_below_term n f i : (forall i, (i < n)%nat -> (0 <= f i)%Q) -> (i < n)%nat -> (f i <= sum_below n f)%Q.
Proof.
  revert f i. induction n as [|n IH]; intros f i H Hi; [lia|]. rewrite sum_below_S.
  pose proof (H O ltac:(lia)). assert (0 <= sum_below n (fun i => f (S i)))%Q by (apply sum_below_nonneg; intros; apply H; lia).
  destruct i as [|i]; [lra|]. specialize (IH (fun i => f (S i)) i). simpl in IH.
  assert (f (S i) <= sum_below n (fun i => f (S i)))%Q; [|lra]. apply IH; [intros; apply H; lia|lia].
Qed.
Lemma sum_below_const0 n : (sum_below n (fun _ => 0) == 0)%Q.
Proof. induction n as [|n IH]; [reflexivity|]. rewrite sum_below_S, IH. lra. Qed.
Lemma sum_below_opp n f : (sum_below n (fun i => - f i) == - sum_below n f)%Q.
Proof.
  rewrite (sum_below_ext n _ (fun i => (-1) * f i)%Q) by (intros; ring). rewrite sum_below_scale. ring.
Qed.

Lemma Qsum_cons a l : (Qsum (a :: l) == a + Qsum l)%Q.
Proof. change (a :: l) with ([a] ++ l). rewrite Qsum_app. unfold Qsum. simpl. lra. Qed.
Lemma Qsum_map (F : Q -> Q) x : (Qsum (map F x) == sum_below (length x) (fun i => F (nth i x 0)))%Q.
Proof.
  induction x as [|j x IH]; [reflexivity|]. cbn [map length]. rewrite Qsum_cons, sum_below_S, IH. reflexivity.
Qed.

(** ** Manhattan norms *)
Section Weighted.
  Variable n : nat.
  Variable w : nat -> Q.
  Hypothesis Hw : forall i, (i < n)%nat -> (0 < w i)%Q.
  Definition weighted (x : list Q) : Q := sum_below n (fun i => w i * Qabs (nth i x 0))%Q.

  Lemma weighted_term x i : (i < n)%nat -> (0 <= w i * Qabs (nth i x 0))%Q.
  Proof. intros Hi. apply Qmult_le_0_compat; [apply Qlt_le_weak, Hw, Hi|apply Qabs_nonneg]. Qed.

  Lemma weighted_norm : is_norm n weighted.
  Proof.
    intros x y Hx Hy. unfold weighted. repeat split.
    - apply sum_below_nonneg. intros i Hi. apply weighted_term, Hi.
    - intros Z. rewrite (sum_below_ext n _ (fun _ => 0%Q)); [apply sum_below_const0|].
      intros i Hi. cbv beta. assert (Qabs (nth i x 0) == 0)%Q as -> by (rewrite (Z i); reflexivity). ring.
    - intros E i. destruct (Nat.lt_ge_cases i n) as [Hi|Hi].
      + pose proof (sum_below_zero n _ (weighted_term x) E i Hi) as H. cbv beta in H.
        apply Qmult_integral in H as [H|H]; [pose proof (Hw i Hi); lra|].
        destruct (Qlt_le_dec (nth i x 0%Q) 0) as [L|L].
        * rewrite Qabs_neg in H by lra. lra.
        * rewrite Qabs_pos in H by lra. exact H.
      + rewrite nth_overflow by lia. reflexivity.
    - intros c. rewrite <- sum_below_scale. apply sum_below_ext. intros i Hi. unfold mul_vec. rewrite Hx, nth_vec by exact Hi.
      rewrite Qabs_Qmult. ring.
    - rewrite <- sum_below_plus. apply sum_below_le. intros i Hi. unfold add_vec. rewrite Hx, nth_vec by exact Hi.
      pose proof (Qabs_triangle (nth i x 0%Q) (nth i y 0%Q)) as T. pose proof (Hw i Hi). nra.
  Qed.
End Weighted.

Lemma manhattan_spec n :
  exists N, computes n manhattan N /\ is_norm n N /\
    forall x, length x = n -> (N x == sum_below n (fun i => Qabs (nth i x 0)))%Q.
Proof.
  exists (weighted n (fun _ => 1%Q)).
  assert (forall x, length x = n -> (weighted n (fun _ => 1%Q) x == sum_below n (fun i => Qabs (nth i x 0)))%Q) as E.
  { intros x _. apply sum_below_ext. intros i _. ring. }
  split; [|split; [apply weighted_norm; intros; lra|exact E]].
  intros x Hx. exists (Qsum (map Qabs x)). split; [reflexivity|]. rewrite (E x Hx), Qsum_map, Hx. reflexivity.
Qed.

Lemma manhattan_scaled_value sw : forall x, length x = length sw -> exists q, manhattan_scaled valQ sw x = Ok q /\
  (q == sum_below (length sw) (fun i => nth i sw 0 / 2 * Qabs (nth i x 0)))%Q.
Proof.
  induction sw as [|b sw IH]; intros [|j x] H; try discriminate H.
  - exists 0%Q. split; reflexivity.
  - destruct (IH x) as (q & E & Eq); [simpl in H; lia|]. cbn [manhattan_scaled]. rewrite E. cbn [obind].
    eexists. split; [reflexivity|]. cbn [length]. rewrite sum_below_S. cbn [nth]. rewrite Eq. reflexivity.
Qed.

Lemma manhattan_scaled_spec sw : Forall (fun b => 0 < b)%Q sw ->
  let n := length sw in
  exists N, computes n (manhattan_scaled valQ sw) N /\ is_norm n N /\
    forall x, length x = n -> (N x == sum_below n (fun i => nth i sw 0 / 2 * Qabs (nth i x 0)))%Q.
Proof.
  intros Hs n. exists (weighted n (fun i => nth i sw 0 / 2)%Q). split; [|split; [|reflexivity]].
  - intros x Hx. apply manhattan_scaled_value. exact Hx.
  - apply weighted_norm. intros i Hi. rewrite Forall_forall in Hs. specialize (Hs (nth i sw 0%Q) (nth_In _ _ Hi)).
    unfold Qdiv. change (/ 2)%Q with (1 # 2)%Q. lra.
Qed.

(** ** The Euclidean norm *)
Definition sq (x : list Q) : Q := inner x x.
Lemma sq_nonneg x : (0 <= sq x)%Q.
Proof. apply sum_below_nonneg. intros i _. nra. Qed.
Lemma Qle_sq a b : (0 <= b)%Q -> (a * a <= b * b)%Q -> (a <= b)%Q.
Proof. intros Hb H. destruct (Qlt_le_dec b a) as [L|L]; [|exact L]. nra. Qed.

Lemma sq0 a : (0 <= a * a)%Q.
Proof. destruct (Qlt_le_dec a 0); nra. Qed.
Lemma mul_le_l a b c : (0 <= a)%Q -> (b <= c)%Q -> (a * b <= a * c)%Q.
Proof. intros Ha H. rewrite (Qmult_comm a b), (Qmult_comm a c). apply Qmult_le_compat_r; assumption. Qed.
(** Cauchy and Schwarz. *)
Lemma cauchy_sum n f g : (sum_below n (fun i => f i * g i) * sum_below n (fun i => f i * g i) <=
  sum_below n (fun i => f i * f i) * sum_below n (fun i => g i * g i))%Q.
Proof.
  revert f g. induction n as [|n IH]; intros f g; [unfold sum_below; simpl; lra|].
  rewrite !sum_below_S. specialize (IH (fun i => f (S i)) (fun i => g (S i))). cbv beta in *.
  set (p := sum_below n (fun i => f (S i) * g (S i))%Q) in *. set (u := sum_below n (fun i => f (S i) * f (S i))%Q) in *.
  set (v := sum_below n (fun i => g (S i) * g (S i))%Q) in *. set (a := f O). set (b := g O).
  assert (0 <= u)%Q as Hu by (apply sum_below_nonneg; intros; nra).
  assert (0 <= v)%Q as Hv by (apply sum_below_nonneg; intros; nra).
  (* 2 a b p <= a^2 v + b^2 u *)
  assert (2 * (a * b * p) <= a * a * v + b * b * u)%Q; [|nra].
  assert (0 <= a * a * v + b * b * u)%Q as Hs by nra.
  apply Qle_sq; [exact Hs|].
  assert ((a * b * p) * (a * b * p) <= (a * a * v) * (b * b * u))%Q as H1.
  { assert (0 <= (a * b) * (a * b))%Q by nra. assert (0 <= u * v - p * p)%Q by lra.
    assert (0 <= (a * b) * (a * b) * (u * v - p * p))%Q by (apply Qmult_le_0_compat; assumption). lra. }
  clear -H1. revert H1. generalize (a * b * p)%Q (a * a * v)%Q (b * b * u)%Q. intros P X Y H1.
  pose proof (sq0 (X - Y)). lra.
Qed.

Section Euclid.
  Variable e : Q.
  Variable sqrt : Q -> Q.
  Hypothesis He : (0 <= e)%Q.
  Hypothesis Hs : sqrt_within e sqrt.
  Hypothesis Hc : forall a b, (a == b)%Q -> (sqrt a == sqrt b)%Q.
  Variable n : nat.
  Let N (x : list Q) : Q := sqrt (sum_below n (fun i => nth i x 0 * nth i x 0)%Q).

  Lemma euclid_computes : computes n (euclidean_norm sqrt) N.
  Proof.
    intros x Hx. eexists. split; [reflexivity|]. unfold N. apply Hc. rewrite (Qsum_map (fun j => j * j)%Q), Hx. reflexivity.
  Qed.

  Let S (x : list Q) : Q := sum_below n (fun i => nth i x 0 * nth i x 0)%Q.
  Lemma S_nonneg x : (0 <= S x)%Q.
  Proof. apply sum_below_nonneg. intros. nra. Qed.
  Lemma N_spec x : (0 <= N x /\ N x * N x <= S x + e * e /\ S x <= (N x + e) * (N x + e))%Q.
  Proof. apply Hs. apply S_nonneg. Qed.

  Lemma S_mul c x : length x = n -> (S (mul_vec c x) == c * c * S x)%Q.
  Proof.
    intros Hx. unfold S. rewrite <- sum_below_scale. apply sum_below_ext. intros i Hi. unfold mul_vec. rewrite Hx, nth_vec by exact Hi. ring.
  Qed.
  Lemma S_add x y : length x = n ->
    (S (add_vec x y) == S x + S y + 2 * sum_below n (fun i => nth i x 0 * nth i y 0))%Q.
  Proof.
    intros Hx. unfold S. rewrite <- sum_below_scale, <- !sum_below_plus. apply sum_below_ext. intros i Hi.
    unfold add_vec. rewrite Hx, nth_vec by exact Hi. ring.
  Qed.

  Lemma euclid_triangle x y : length x = n -> length y = n -> (N (add_vec x y) <= N x + N y + 3 * e)%Q.
  Proof.
    intros Hx Hy. destruct (N_spec x) as (X0 & _ & X2). destruct (N_spec y) as (Y0 & _ & Y2). destruct (N_spec (add_vec x y)) as (A0 & A1 & _).
    rewrite (S_add x y Hx) in A1. pose proof (cauchy_sum n (fun i => nth i x 0%Q) (fun i => nth i y 0%Q)) as C. cbv beta in C.
    set (p := sum_below n (fun i => nth i x 0 * nth i y 0)%Q) in *. fold (S x) (S y) in C.
    set (u := (N x + e)%Q) in *. set (v := (N y + e)%Q) in *. assert (0 <= u)%Q by (unfold u; lra). assert (0 <= v)%Q by (unfold v; lra).
    pose proof (S_nonneg x). pose proof (S_nonneg y).
    assert (p <= u * v)%Q as Hp.
    { apply Qle_sq; [apply Qmult_le_0_compat; assumption|]. assert (S x * S y <= (u * u) * (v * v))%Q; [|lra].
      pose proof (mul_le_l (S x) (S y) (v * v) ltac:(assumption) Y2).
      pose proof (Qmult_le_compat_r (S x) (u * u) (v * v) X2 (sq0 v)). lra. }
    apply Qle_sq; [lra|]. setoid_replace (N x + N y + 3 * e)%Q with (u + v + e)%Q by (unfold u, v; ring).
    assert (0 <= (u + v) * e)%Q by (apply Qmult_le_0_compat; lra). lra.
  Qed.

  Lemma euclid_scale c x : length x = n -> (Qabs (N (mul_vec c x) - Qabs c * N x) <= (1 + Qabs c) * e)%Q.
  Proof.
    intros Hx. destruct (N_spec x) as (X0 & X1 & X2). destruct (N_spec (mul_vec c x)) as (A0 & A1 & A2).
    rewrite (S_mul c x Hx) in A1, A2. pose proof (Qabs_nonneg c) as Ca.
    assert (c * c == Qabs c * Qabs c)%Q as Cc.
    { rewrite <- Qabs_Qmult. rewrite Qabs_pos by nra. reflexivity. }
    rewrite Cc in A1, A2. set (a := Qabs c) in *. clearbody a. set (m := N (mul_vec c x)) in *.
    assert (0 <= a * a)%Q by apply sq0. assert (0 <= a * e)%Q by (apply Qmult_le_0_compat; assumption). assert (0 <= a * (N x + e))%Q by (apply Qmult_le_0_compat; lra).
    assert (m <= a * (N x + e) + e)%Q as Up.
    { apply Qle_sq; [lra|]. pose proof (mul_le_l (a * a) (S x) ((N x + e) * (N x + e)) ltac:(assumption) X2).
      assert (0 <= a * (N x + e) * e)%Q by (apply Qmult_le_0_compat; assumption). lra. }
    assert (a * N x <= m + e + a * e)%Q as Lo.
    { apply Qle_sq; [lra|]. pose proof (mul_le_l (a * a) (N x * N x) (S x + e * e) ltac:(assumption) X1).
      assert (0 <= (m + e) * (a * e))%Q by (apply Qmult_le_0_compat; lra). lra. }
    apply Qabs_Qle_condition. split; lra.
  Qed.
End Euclid.

Lemma euclid_norm_spec e sqrt : (0 <= e)%Q -> sqrt_within e sqrt -> (forall a b, (a == b)%Q -> (sqrt a == sqrt b)%Q) ->
  forall n, exists N, computes n (euclidean_norm sqrt) N /\
  forall x y, length x = n -> length y = n ->
    (0 <= N x)%Q /\ (N x * N x <= inner x x + e * e)%Q /\ (inner x x <= (N x + e) * (N x + e))%Q /\
    (forall c, (Qabs (N (mul_vec c x) - Qabs c * N x) <= (1 + Qabs c) * e)%Q) /\
    (N (add_vec x y) <= N x + N y + 3 * e)%Q.
Proof.
  intros He Hs Hc n. exists (fun x => sqrt (sum_below n (fun i => nth i x 0 * nth i x 0)%Q)).
  split; [apply euclid_computes; exact Hc|]. intros x y Hx Hy.
  destruct (Hs (sum_below n (fun i => nth i x 0 * nth i x 0)%Q)) as (H1 & H2 & H3).
  { apply sum_below_nonneg. intros. apply sq0. }
  unfold inner. rewrite Hx. split; [exact H1|]. split; [exact H2|]. split; [exact H3|]. split.
  - intros c. apply euclid_scale; auto.
  - apply euclid_triangle; auto.
Qed.
