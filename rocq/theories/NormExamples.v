(** Concrete instances for the properties of NormProps, and their limits. *)
From Coq Require Import Lia Lqa Qabs.
From Verif Require Import NumLemmas OptimizeModel OptimizeSpec OptimizeProofs OptimizeBrute.
From Verif Require Import DescentProofs NormModel NormSpec NormProofs NormDual.
From Verif Require Import ProblemModel CostModel.
Local Open Scope Z_scope.

(** ** An ideal maximiser: try all points of a cube *)
Definition nneg (a : fnum) : fnum := match a with NegInf => PosInf | Num q => Num (- q) | PosInf => NegInf end.
Definition cube_max (r : Q) (p : nl_problem) : outcome nl_result :=
  let all := points (map (fun _ => (Num (- r), Num r)) (nl_bounds p)) in
  match best (fun x => do v <- nl_objective p x; Ok (nneg v)) (filter (admissible (nl_constraints p)) all) with
  | Some (_, x) => do v <- nl_objective p x; Ok (NlOk Success v x)
  | None => Panic
  end.
Lemma nneg_le a b : num_le (nneg a) (nneg b) -> num_le b a.
Proof. destruct a, b; simpl; auto. intros. lra. Qed.

Lemma cube_bounds r d : map (fun _ : fnum * fnum => (Num (- r), Num r)) (repeat (NegInf, PosInf) d) = num_bounds (repeat (- r, r)%Q d).
Proof. induction d; simpl; congruence. Qed.
Lemma cube_length r d x : in_boxQ (repeat (- r, r)%Q d) x -> length x = d.
Proof. intros H. apply Forall2_len in H. rewrite repeat_length in H. auto. Qed.
Lemma cube_in r z : Forall (fun j => Qabs (apply_precision j) <= r)%Q z ->
  in_boxQ (repeat (- r, r)%Q (length z)) (map apply_precision z).
Proof.
  induction 1 as [|j z Hj Hz IH]; [constructor|]. cbn [length repeat map]. constructor; [|exact IH].
  apply Qabs_Qle_condition in Hj. simpl. lra.
Qed.

Example maximizer_exists : forall r, (0 <= r)%Q -> hundredths r -> exact_maximizer r (cube_max r).
Proof.
  intros r Hr0 Hr a f d cs x0 _ Hx0 Hround Htot (z0 & Hz0 & Sz0) Hcube.
  unfold cube_max. cbn [nl_bounds nl_objective nl_constraints]. rewrite cube_bounds.
  set (bounds := repeat (- r, r)%Q d). set (all := points (num_bounds bounds)).
  assert (aligned bounds) as Ha.
  { apply Forall_forall. intros b Hb. apply repeat_spec in Hb. subst b. simpl. destruct Hr as [k Hk].
    split; [exists (- k); rewrite Hk; reflexivity|]. split; [exists k; exact Hk|lra]. }
  assert (forall z, satisfies cs z 0 -> satisfies cs z (1 # 1000)) as Weak.
  { intros z Sz. unfold satisfies in *. eapply Forall_impl; [|exact Sz]. intros g (w & Ew & Lw).
    exists w. split; [exact Ew|]. eapply num_le_trans; [exact Lw|]. simpl. lra. }
  assert (forall z, length z = d -> satisfies cs z 0 -> In (map apply_precision z) (filter (admissible cs) all)) as Hin.
  { intros z Hz Sz. apply filter_In. split.
    - rewrite <- map_ap_idem. apply points_complete; [exact Ha|]. unfold bounds. rewrite <- Hz. apply cube_in. apply Hcube; auto.
    - apply admissible_iff. unfold satisfies in *. rewrite Forall_forall in *. intros g Hg.
      rewrite <- (Hround g (or_intror Hg)). auto. }
  assert (forall x, In x (filter (admissible cs) all) -> length x = d /\ satisfies cs x 0) as Sound.
  { intros x Hx. apply filter_In in Hx as [Hx Ax]. split; [|apply admissible_iff; exact Ax].
    apply points_sound in Hx; [|exact Ha]. exact (cube_length r d x Hx). }
  destruct (best_spec (fun x => do v <- f x; Ok (nneg v)) (filter (admissible cs) all)) as (v & x & -> & Hx & Ev & Hmin).
  { intros E. specialize (Hin z0 Hz0 Sz0). rewrite E in Hin. destruct Hin. }
  { intros x Hx. destruct (Sound x Hx) as [Lx _]. destruct (Htot f (or_introl eq_refl) x Lx) as (w & ->). eexists. reflexivity. }
  destruct (Sound x Hx) as [Lx Sx]. destruct (Htot f (or_introl eq_refl) x Lx) as (w & Ew). rewrite Ew in *. cbn [obind] in *.
  exists Success, w, x. split; [reflexivity|]. split; [discriminate|]. split; [discriminate|]. split; [exact Lx|].
  split; [exact Ew|]. split; [apply Weak, Sx|]. intros z u Hz Sz Eu. apply nneg_le. injection Ev as <-.
  apply (Hmin (map apply_precision z)); [apply Hin; auto|].
  rewrite <- (Hround f (or_introl eq_refl)), Eu. reflexivity.
Qed.

(** [dual_of_manhattan]: the maximum norm of (3, -4) is 4. *)
Example dual_manhattan_answer :
  exact_maximizer 1 (cube_max 1) /\
  (do q <- dual_norm (cube_max 1) manhattan [Num 3; Num (-4)];
   match q with Num q => Ok (Qeq_bool q 4) | _ => Panic end) = Ok true.
Proof. split; [apply maximizer_exists; [lra|exists 100; reflexivity]|]. vm_compute. reflexivity. Qed.

(** Square roots rounded down to two digits. *)
Definition rsqrt (q : Q) : Q := (Z.sqrt (Qfloor (10000 * q)) # 100)%Q.
Example rsqrt_within :
  sqrt_within (1 # 100) rsqrt /\ (forall a b, (a == b)%Q -> (rsqrt a == rsqrt b)%Q) /\
  (forall q, (0 <= q <= 1)%Q -> (rsqrt q <= 1)%Q).
Proof.
  assert (forall q, (0 <= q)%Q -> 0 <= Qfloor (10000 * q)) as Hf.
  { intros q Hq. change 0 with (Qfloor 0). apply Qfloor_resp_le. lra. }
  split; [|split].
  - intros q Hq. unfold rsqrt. destruct (floor_bounds (10000 * q)) as [F1 F2]. specialize (Hf q Hq).
    set (k := Qfloor (10000 * q)) in *. destruct (Z.sqrt_spec k Hf) as [S1 S2]. pose proof (Z.sqrt_nonneg k) as S0.
    set (s := Z.sqrt k) in *. rewrite (hundredth s).
    assert (inject_Z (s * s) <= inject_Z k)%Q as Q1 by (rewrite <- Zle_Qle; exact S1).
    assert (inject_Z k + 1 <= inject_Z (Z.succ s * Z.succ s))%Q as Q2.
    { change 1%Q with (inject_Z 1). rewrite <- inject_Z_plus, <- Zle_Qle. lia. }
    unfold Z.succ in Q2. rewrite inject_Z_mult in Q1. rewrite !inject_Z_mult, !inject_Z_plus in Q2. change (inject_Z 1) with 1%Q in Q2.
    assert (0 <= inject_Z s)%Q by (change 0%Q with (inject_Z 0); rewrite <- Zle_Qle; exact S0).
    split; [lra|]. split; nra.
  - intros a b E. unfold rsqrt. rewrite (Qfloor_comp (10000 * a) (10000 * b)); [reflexivity|]. rewrite E. reflexivity.
  - intros q [H0 H1]. unfold rsqrt. assert (Z.sqrt (Qfloor (10000 * q)) <= 100) as L; [|revert L; generalize (Z.sqrt (Qfloor (10000 * q))); intros k L; unfold Qle; simpl; lia].
    change 100 with (Z.sqrt 10000). apply Z.sqrt_le_mono. assert (10000 * q <= 10000)%Q as Lq by lra. exact (Qfloor_resp_le _ _ Lq).
Qed.

(** [dual_of_euclidean]: (3, -4) has norm 5. *)
Example dual_euclidean_answer :
  exact_maximizer (102 # 100) (cube_max (102 # 100)) /\ (1 + (1 # 1000) + (1 # 100) <= 102 # 100)%Q /\
  (do q <- dual_norm (cube_max (102 # 100)) (euclidean_norm rsqrt) [Num 3; Num (-4)];
   match q with Num q => Ok (Qle_bool (49 # 10) q && Qle_bool q (51 # 10)) | _ => Panic end) = Ok true.
Proof.
  split; [apply maximizer_exists; [lra|exists 102; reflexivity]|]. split; [discriminate|]. vm_compute. reflexivity.
Qed.

(** ** Mahalanobis distance *)
Definition cov : matrix := [[2; 1]; [1; 2]]%Q.
Definition cov_inverse (m : matrix) : option matrix := Some [[2 # 3; - (1 # 3)]; [- (1 # 3); 2 # 3]]%Q.
Lemma maps_two a b c d v w : length v = 2%nat -> length w = 2%nat ->
  (maps_to [[a; b]; [c; d]] v w <->
   (nth 0 w 0 == a * nth 0 v 0 + b * nth 1 v 0 /\ nth 1 w 0 == c * nth 0 v 0 + d * nth 1 v 0)%Q).
Proof.
  intros Lv Lw. unfold maps_to, inner, sum_below. simpl length. split.
  - intros [_ H]. pose proof (H O ltac:(lia)) as H0. pose proof (H 1%nat ltac:(lia)) as H1. simpl in H0, H1.
    change (nth 0 v 0%Q) with (nth 0 v 0%Q) in *. split; [rewrite H0; ring|rewrite H1; ring].
  - intros [H0 H1]. split; [exact Lw|]. intros [|[|i]] Hi; simpl; [rewrite H0; ring|rewrite H1; ring|lia].
Qed.
Example mahalanobis_hypotheses :
  square 2 cov /\ inverts 2 cov_inverse cov /\ semidefinite 2 cov /\ definite 2 cov /\
  (do f <- mahalanobis cov_inverse cov [1; 1]%Q; do k <- f [2; 3]%Q; Ok (Qeq_bool k 2)) = Ok true.
Proof.
  assert (forall v w, length v = 2%nat -> length w = 2%nat -> maps_to cov v w ->
    (inner v w == nth 0 v 0 * nth 0 v 0 + nth 1 v 0 * nth 1 v 0 + (nth 0 v 0 + nth 1 v 0) * (nth 0 v 0 + nth 1 v 0))%Q) as F.
  { intros v w Lv Lw M. apply maps_two in M as [M0 M1]; auto. unfold inner, sum_below. rewrite Lv. cbn [seq fold_right].
    rewrite M0, M1. ring. }
  split; [split; [reflexivity|repeat constructor]|]. split; [|split; [|split; [|vm_compute; reflexivity]]].
  - split; [split; [reflexivity|repeat constructor]|]. intros v w Lv Lw. unfold cov. rewrite !maps_two by auto. split; intros [M0 M1]; split; lra.
  - intros v w Lv Lw M. rewrite (F v w Lv Lw M).
    pose proof (sq0 (nth 0 v 0%Q)). pose proof (sq0 (nth 1 v 0%Q)). pose proof (sq0 (nth 0 v 0%Q + nth 1 v 0%Q)). lra.
  - intros v w Lv Lw M Nz. rewrite (F v w Lv Lw M).
    pose proof (sq0 (nth 0 v 0%Q)) as A. pose proof (sq0 (nth 1 v 0%Q)) as B. pose proof (sq0 (nth 0 v 0%Q + nth 1 v 0%Q)) as C.
    destruct (Qlt_le_dec 0 (nth 0 v 0%Q * nth 0 v 0%Q + nth 1 v 0%Q * nth 1 v 0%Q)) as [L|L]; [lra|].
    exfalso. apply Nz. assert (nth 0 v 0 * nth 0 v 0 == 0)%Q as Z0 by lra. assert (nth 1 v 0 * nth 1 v 0 == 0)%Q as Z1 by lra.
    apply Qmult_integral in Z0. apply Qmult_integral in Z1.
    intros [|[|i]]; [tauto|tauto|]. rewrite nth_overflow by lia. reflexivity.
Qed.
(** A singular matrix. *)
Example mahalanobis_singular :
  square 2 [[1; 1]; [1; 1]]%Q /\ inverts 2 (fun _ => None) [[1; 1]; [1; 1]]%Q /\
  mahalanobis (fun _ => None) [[1; 1]; [1; 1]]%Q [0; 0]%Q = Err MatrixMustBeInvertible.
Proof.
  split; [split; [reflexivity|repeat constructor]|]. split; [|reflexivity].
  exists [1; - (1)]%Q. split; [reflexivity|]. split; [intros Z; specialize (Z O); discriminate Z|].
  apply maps_two; [reflexivity..|]. split; reflexivity.
Qed.

(** It is declared as a norm, but it is not one, even for the identity matrix: it is the square of
    a distance (to [mean], rather than to 0). *)
Theorem mahalanobis_norm_refuted :
  exists inverse f, inverts 1 inverse [[1%Q]] /\ definite 1 [[1%Q]] /\ mahalanobis inverse [[1%Q]] [0%Q] = Ok f /\
  forall N, computes 1 f N -> ~ is_norm 1 N.
Proof.
  exists (fun _ => Some [[1%Q]]). eexists. split; [|split; [|split; [reflexivity|]]].
  - assert (forall v w : list Q, length v = 1%nat -> length w = 1%nat -> (maps_to [[1%Q]] v w <-> nth 0 w 0 == nth 0 v 0)%Q) as M.
    { intros v w Lv Lw. unfold maps_to, inner, sum_below. simpl length. split.
      - intros [_ H]. specialize (H O ltac:(lia)). simpl in H. rewrite H. ring.
      - intros H. split; [exact Lw|]. intros [|i] Hi; [|lia]. simpl. rewrite H. ring. }
    split; [split; [reflexivity|repeat constructor]|]. intros v w Lv Lw. rewrite !M by auto. split; intros H; symmetry; exact H.
  - intros v w Lv Lw [_ H] Nz. specialize (H O ltac:(simpl; lia)). unfold inner, sum_below in *. simpl in H. rewrite Lv.
    cbn [seq fold_right]. rewrite H. destruct v as [|a [|b v]]; try discriminate Lv. cbn [nth].
    assert (0 < a * a)%Q; [|lra]. pose proof (sq0 a). apply Qnot_le_lt. intros L. apply Nz.
    assert (a * a == 0)%Q as Z by lra. apply Qmult_integral in Z. intros [|[|i]]; simpl; [tauto|reflexivity|reflexivity].
  - intros N HN H. destruct (H [1%Q] [1%Q] eq_refl eq_refl) as (_ & _ & _ & Hom & _). specialize (Hom 2%Q).
    destruct (HN [1%Q] eq_refl) as (a & Ea & Ha). destruct (HN (mul_vec 2 [1%Q]) eq_refl) as (b & Eb & Hb).
    vm_compute in Ea. injection Ea as <-. vm_compute in Eb. injection Eb as <-. rewrite <- Ha, <- Hb in Hom. discriminate Hom.
Qed.
Theorem mahalanobis_staying_refuted :
  exists inverse f k, inverts 1 inverse [[1%Q]] /\ mahalanobis inverse [[1%Q]] [1%Q] = Ok f /\ f [0%Q] = Ok k /\ (0 < k)%Q.
Proof.
  exists (fun _ => Some [[1%Q]]). do 2 eexists. split; [|split; [reflexivity|split; [vm_compute; reflexivity|reflexivity]]].
  assert (forall v w : list Q, length v = 1%nat -> length w = 1%nat -> (maps_to [[1%Q]] v w <-> nth 0 w 0 == nth 0 v 0)%Q) as M.
  { intros v w Lv Lw. unfold maps_to, inner, sum_below. simpl length. split.
    - intros [_ H]. specialize (H O ltac:(lia)). simpl in H. rewrite H. ring.
    - intros H. split; [exact Lw|]. intros [|i] Hi; [|lia]. simpl. rewrite H. ring. }
  split; [split; [reflexivity|repeat constructor]|]. intros v w Lv Lw. rewrite !M by auto. split; intros H; symmetry; exact H.
Qed.

Print Assumptions mahalanobis_norm_refuted.
Print Assumptions mahalanobis_staying_refuted.
