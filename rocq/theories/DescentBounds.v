(** Proofs: static fractional optimum, answers within the bounds for any optimiser that
    keeps to them, projections in Euclidean distance. *)
From Coq Require Import Lia Lqa Qabs.
From Verif Require Import NumLemmas DescentModel DescentSpec OptimizeProofs OptimizeBrute CostSpec CostProofs ObjectiveProofs
  HorizonProofs StaticProofs GraphSearchCosts DescentProofs DescentAlgorithms DescentMore.
From Verif Require Import ProblemModel CostModel.
Local Open Scope Z_scope.

(** ** Static fractional optimum *)
Section Static.
  Context {C D : Type}.
  Variable vmerge : C -> C -> outcome C.
  Variable merge : C -> C -> C.
  Variable outside : D.
  Variable nlopt : nl_problem -> outcome nl_result.
  Hypothesis Hex : exact_nlopt nlopt.
  Variable sched : list Q -> split.
  Variable p : gsco Q C D.
  Variable hit : Z -> list Q -> ext.
  Variable N : list Q -> Q.
  Let bounds := o_bounds p.
  Let d := length bounds.
  Let n := Z.to_nat (o_tend p).
  Hypothesis Ha : aligned bounds.
  Hypothesis Hd : o_d p = Z.of_nat d.
  Hypothesis HT : 0 <= o_tend p.
  Hypothesis Hcost : forall s x, 1 <= s <= o_tend p -> in_boxQ bounds x ->
    exists c, call_mean vmerge (o_cost p) s x = Ok c /\ eeq (c_cost c) (hit s x).
  Hypothesis HH : forall s, respects_eq eeq (hit s).
  Hypothesis Hn : computes d (o_norm p) N.
  Hypothesis HN : respects_eq Qeq N.

  Lemma alpha_cost_comp alpha x y k : Forall2 Qeq x y ->
    eeq (alpha_cost hit N d alpha (repeat x k)) (alpha_cost hit N d alpha (repeat y k)).
  Proof.
    intros E. unfold alpha_cost.
    assert (forall k t a b, Forall2 Qeq a b ->
      eeq (total_cost hit (fun prev x => N (differenceQ x prev)) alpha t a (repeat x k))
          (total_cost hit (fun prev x => N (differenceQ x prev)) alpha t b (repeat y k))) as G.
    { induction k0 as [|k0 IH]; intros t a b Eab; [reflexivity|]. cbn [repeat total_cost].
      apply eadd_proper; [apply eadd_proper|].
      - apply HH. exact E.
      - simpl. rewrite (HN _ _ (difference_comp _ _ _ _ E Eab)). reflexivity.
      - apply IH. exact E. }
    apply G. apply Forall2_Qeq_refl.
  Qed.

  Lemma static_objective s alpha x : in_boxQ bounds x ->
    exists c, objective_o merge s (gsco_problem valQ vmerge outside p) (repeat x n) (gzero valQ (o_d p)) alpha false (o_tend p) = Ok c /\
      eeq (c_cost c) (alpha_cost hit N d alpha (repeat x n)).
  Proof.
    intros Hx. assert (gzero valQ (o_d p) = repeat 0%Q d) as -> by (unfold gzero; rewrite Hd, Nat2Z.id; reflexivity).
    assert (forall z, In z (repeat x n) -> z = x) as HR by (intros z Hz; apply repeat_spec in Hz; exact Hz).
    pose proof (in_boxQ_length _ _ Hx) as Lx. fold d in Lx.
    destruct (objective_along merge (gsco_problem valQ vmerge outside p) hit
                (fun prev x => N (differenceQ x prev)) (repeat 0%Q d) alpha false s (repeat x n)) as (c & H1 & H2).
    - cbn. rewrite repeat_length. unfold n. lia.
    - intros t z Ht Hz. apply HR in Hz. subst z. cbn [gsco_problem op_hit]. rewrite gsco_hit_inside by exact Hx. apply Hcost; auto.
    - intros a b Ea Eb. cbn [gsco_problem op_move]. unfold gsco_move. change (config_sub valQ b a) with (differenceQ b a). apply Hn.
      apply HR in Eb. subst b. rewrite difference_length; [exact Lx|]. destruct Ea as [-> | Ea]; [rewrite repeat_length; exact Lx|].
      apply HR in Ea. subst a. reflexivity.
    - exists c. split; [exact H1|exact H2].
  Qed.

  Lemma static_spec alpha l : (l = None \/ exists q, l = Some q /\ (q == 0)%Q) ->
    exists x, static_fractional vmerge merge outside nlopt sched p false alpha l = Ok (repeat x n) /\ grid bounds x /\
      forall z, grid bounds z ->
        ele (alpha_cost hit N d alpha (repeat x n)) (alpha_cost hit N d alpha (repeat z n)).
  Proof.
    intros Hl. unfold static_fractional.
    assert (negb match l with Some l0 => Qeq_bool l0 0 | None => true end = false) as ->.
    { destruct Hl as [-> | (q & -> & Hq)]; [reflexivity|]. apply Qeq_bool_iff in Hq. rewrite Hq. reflexivity. }
    fold n. fold bounds.
    destruct (find_minimizer_spec nlopt Hex
      (fun x => do c <- objective_o merge (sched x) (gsco_problem valQ vmerge outside p) (repeat x n)
                        (gzero valQ (o_d p)) alpha false (o_tend p); Ok (num_of (c_cost c)))
      (fun x => num_of (alpha_cost hit N d alpha (repeat x n))) bounds Ha) as (x & v & E & _ & _ & _ & Hg & Hm).
    - intros x [Hx _]. destruct (static_objective (sched x) alpha x Hx) as (c & E & Ec). rewrite E. cbn [obind].
      eexists. split; [reflexivity|]. apply num_of_eq. exact Ec.
    - intros x y Hxy. apply num_of_eq. apply alpha_cost_comp. exact Hxy.
    - rewrite E. cbn [obind fst]. exists x. split; [reflexivity|]. split; [exact Hg|]. intros z Hz. apply num_of_le, Hm, Hz.
  Qed.
End Static.

(** ** Any optimiser that keeps to the bounds *)
Section Bounds.
  Context {C D : Type}.
  Variable vmerge : C -> C -> outcome C.
  Variable merge : C -> C -> C.
  Variable outside : D.
  Variable nlopt : nl_problem -> outcome nl_result.
  Hypothesis Hk : keeps_bounds nlopt.
  Variable brent : Q * Q -> (Q -> outcome fnum) -> outcome Q.
  Variable eps : Q.
  Variable sqrt : Q -> Q.

  Lemma minimize_grid f bounds init cs r : aligned bounds -> minimize nlopt f bounds init cs = Ok r -> grid bounds (fst r).
  Proof.
    intros Ha E. destruct r as (x, v). destruct (near_bounds nlopt f bounds init cs x v Hk E) as (H1 & _ & H3).
    split; [apply H3; exact Ha|exact H1].
  Qed.

  Lemma fm_grid f bounds r : aligned bounds -> find_minimizer nlopt f bounds = Ok r -> grid bounds (fst r).
  Proof. intros Ha E. exact (minimize_grid f bounds None [] r Ha E). Qed.
  Lemma fh_grid t (cf : cost_fn (list Q) C D) bounds r : aligned bounds ->
    find_minimizer_of_hitting_cost nlopt t cf bounds = Ok r -> grid bounds (fst r).
  Proof. intros Ha E. exact (fm_grid _ bounds r Ha E). Qed.

  Variable o : online (gsco Q C D).
  Variable xs : list (list Q).
  Let bounds := o_bounds (on_p o).
  Hypothesis Ha : aligned bounds.

  Lemma projection_grid h l (cf : cost_fn (list Q) C D) t y x : bregman_projection nlopt eps h l bounds cf t y = Ok x -> grid bounds x.
  Proof.
    unfold bregman_projection. intros E. apply obind_Ok in E as (v & Ev & E). apply obind_Ok in E as (w & Ew & E).
    apply obind_Ok in E as (c & _ & E). destruct (ngtb c (Num l)).
    - injection E as <-. apply (fh_grid _ _ _ _ Ha Ev).
    - injection E as <-. apply (minimize_grid _ _ _ _ _ Ha Ew).
  Qed.
  Lemma obd_grid h l t x m : obd nlopt eps l h o t xs tt = Ok (x, m) -> grid bounds x.
  Proof.
    unfold obd. destruct (negb (on_w o =? 0)); [discriminate|]. intros E. apply obind_Ok in E as (y & Ey & E).
    injection E as <- <-. apply projection_grid in Ey. exact Ey.
  Qed.
  Lemma pobd_grid beta h t x m : pobd vmerge outside nlopt brent eps beta h o t xs tt = Ok (x, m) -> grid bounds x.
  Proof.
    unfold pobd. destruct (negb (on_w o =? 0)); [discriminate|]. intros E.
    apply obind_Ok in E as (v & Ev & E). apply obind_Ok in E as (n & _ & E). apply obind_Ok in E as (lim & _ & E).
    destruct (negb (ngtb (Num n) lim)).
    { injection E as <- <-. apply (fh_grid _ _ _ _ Ha Ev). }
    apply obind_Ok in E as (a & _ & E). apply obind_Ok in E as (b & _ & E). apply obind_Ok in E as (l & _ & E).
    unfold obd_next, alg_next in E. apply obd_grid in E. exact E.
  Qed.
  Lemma dobd_grid eta h t x m : dobd vmerge outside nlopt brent eps eta h o t xs tt = Ok (x, m) -> grid bounds x.
  Proof.
    unfold dobd. destruct (negb (on_w o =? 0)); [discriminate|]. intros E.
    apply obind_Ok in E as (v & Ev & E).
    apply obind_Ok in E as (a & _ & E). apply obind_Ok in E as (b & _ & E). apply obind_Ok in E as (l & _ & E).
    unfold obd_next, alg_next in E. apply obd_grid in E. exact E.
  Qed.
  Lemma robd_grid m alpha beta t x mem : robd vmerge outside nlopt sqrt m alpha beta o t xs tt = Ok (x, mem) -> grid bounds x.
  Proof.
    unfold robd. destruct (negb (on_w o =? 0)); [discriminate|]. intros E.
    apply obind_Ok in E as (v & Ev & E). apply obind_Ok in E as (y & Ey & E). injection E as <- <-.
    apply (fm_grid _ _ _ Ha Ey).
  Qed.
  Lemma ogd_grid eta t x m : ogd vmerge outside nlopt eps sqrt eta o t xs tt = Ok (x, m) -> grid bounds x.
  Proof.
    unfold ogd. destruct (negb (on_w o =? 0)); [discriminate|]. intros E.
    apply obind_Ok in E as (g & _ & E). apply obind_Ok in E as (s & _ & E). apply obind_Ok in E as (y & _ & E).
    apply obind_Ok in E as (z & Ez & E). injection E as <- <-. unfold project_onto in Ez.
    apply obind_Ok in Ez as (w & Ew & Ez). injection Ez as <-. apply (fm_grid _ _ _ Ha Ew).
  Qed.

  Lemma box_combination bs : forall s u v, (0 <= s)%Q -> (s <= 1)%Q -> in_boxQ bs u -> in_boxQ bs v ->
    in_boxQ bs (plus (times s u) (times (1 - s) v)).
  Proof.
    induction bs as [|b bs IH]; intros s u v H0 H1 Hu Hv; inversion Hu as [|? x ? u' Hx Hu']; subst;
      inversion Hv as [|? y ? v' Hy Hv']; subst; [constructor|].
    change (plus (times s (x :: u')) (times (1 - s) (y :: v'))) with ((s * x + (1 - s) * y)%Q :: plus (times s u') (times (1 - s) v')).
    constructor; [|apply IH; auto].
    assert (s * fst b <= s * x)%Q by (rewrite !(Qmult_comm s); apply Qmult_le_compat_r; tauto || lra).
    assert (s * x <= s * snd b)%Q by (rewrite !(Qmult_comm s); apply Qmult_le_compat_r; tauto || lra).
    assert ((1 - s) * fst b <= (1 - s) * y)%Q by (rewrite !(Qmult_comm (1 - s)); apply Qmult_le_compat_r; tauto || lra).
    assert ((1 - s) * y <= (1 - s) * snd b)%Q by (rewrite !(Qmult_comm (1 - s)); apply Qmult_le_compat_r; tauto || lra).
    split; lra.
  Qed.
  Lemma gobd_box m mu gamma h t x mem : (0 <= mu * sqrt m)%Q ->
    gobd vmerge outside nlopt brent eps sqrt m mu gamma h o t xs tt = Ok (x, mem) -> in_boxQ bounds x.
  Proof.
    intros Hs. unfold gobd. destruct (negb (on_w o =? 0)); [discriminate|]. intros E.
    apply obind_Ok in E as (v & Ev & E). apply obind_Ok in E as ((y, my) & Ey & E). injection E as <- <-.
    apply (fh_grid _ _ _ _ Ha) in Ev as [Bv _]. unfold alg_next in Ey. apply pobd_grid in Ey as [By _].
    destruct (Qle_bool 1 (mu * sqrt m)) eqn:E1; [exact Bv|].
    assert (mu * sqrt m < 1)%Q. { apply Qnot_le_lt. intros L. apply Qle_bool_iff in L. congruence. }
    apply box_combination; auto. lra.
  Qed.
  Lemma rbg_box theta t r x m : length bounds = 1%nat -> rbg vmerge outside nlopt theta o t xs r = Ok (x, m) -> grid bounds x /\ m = None.
  Proof.
    intros HL. unfold rbg. destruct (negb (on_w o =? 0)); [discriminate|]. destruct (negb (o_d (on_p o) =? 1)); [discriminate|]. intros E.
    apply obind_Ok in E as (y & Ey & E). apply obind_Ok in E as (j & Ej & E). injection E as <- <-. split; [|reflexivity].
    apply (fm_grid _ _ _ Ha) in Ey. pose proof (in_boxQ_length _ _ (proj1 Ey)) as L. fold bounds in L.
    destruct y as ([|k [|? ?]], w); simpl in L; try lia. simpl in Ej. injection Ej as ->. exact Ey.
  Qed.
  Lemma static_grid sched alpha l ys : 
    static_fractional vmerge merge outside nlopt sched (on_p o) false alpha l = Ok ys ->
    exists x, ys = repeat x (Z.to_nat (o_tend (on_p o))) /\ grid bounds x.
  Proof.
    unfold static_fractional. destruct (negb _); [discriminate|]. intros E. apply obind_Ok in E as (x & Ex & E).
    injection E as <-. exists (fst x). split; [reflexivity|]. apply (fm_grid _ _ _ Ha Ex).
  Qed.
End Bounds.

Lemma memoryless_grid {C D} (vmerge : C -> C -> outcome C) (outside : D) nlopt (o : online (gssco Q C D)) xs t u x m :
  keeps_bounds nlopt -> g_bounds (on_p o) = [u] -> (0 <= u)%Q -> hundredths u ->
  memoryless vmerge outside nlopt o t xs tt = Ok (x, m) -> grid [(0%Q, u)] x.
Proof.
  intros Hk Hu H0 Hh. unfold memoryless. destruct (negb (on_w o =? 0)); [discriminate|]. destruct (negb (g_d (on_p o) =? 1)); [discriminate|].
  intros E. apply obind_Ok in E as (q & _ & E). apply obind_Ok in E as (y & Ey & E). injection E as <- <-.
  unfold memoryless_next in Ey. rewrite Hu in Ey. cbn [nth_error from_option obind] in Ey.
  apply obind_Ok in Ey as (r & Er & Ey). apply (minimize_grid nlopt Hk) in Er.
  - pose proof (in_boxQ_length _ _ (proj1 Er)) as L. destruct r as ([|k [|? ?]], w); simpl in L; try lia.
    simpl in Ey. injection Ey as ->. exact Er.
  - constructor; [|constructor]. simpl. split; [exists 0; reflexivity|]. auto.
Qed.

(** ** Euclidean projections *)
Section Euclid.
  Variable sqrt : Q -> Q.
  Variable delta : Q.
  Hypothesis Hsqrt : forall q, (0 <= q)%Q -> (Qabs (sqrt q * sqrt q - q) <= delta)%Q.
  Variable eps : Q.
  Hypothesis Heps : (0 < eps)%Q.

  Definition half_square (x : list Q) : Q := let r := sqrt (Qsum (map (fun j => (j * j)%Q) x)) in (r * r / 2)%Q.
  Lemma half_square_computes n : computes n (norm_squared (euclidean_norm sqrt)) half_square.
  Proof. intros x _. eexists. split; [reflexivity|]. reflexivity. Qed.

  Definition squares (x : list Q) : Q := Qsum (map (fun j => (j * j)%Q) x).
  Lemma squares_nonneg x : (0 <= squares x)%Q.
  Proof.
    unfold squares. induction x as [|j x IH]; [apply Qle_refl|]. cbn [map Qsum].
    assert (0 <= j * j)%Q; [|lra]. destruct (Qlt_le_dec j 0) as [L|L].
    - assert (0 <= - j * - j)%Q by (apply Qmult_le_0_compat; lra). lra.
    - apply Qmult_le_0_compat; lra.
  Qed.
  Lemma half_square_near x : (Qabs (2 * half_square x - squares x) <= delta)%Q.
  Proof.
    pose proof (Hsqrt (squares x) (squares_nonneg x)) as H. unfold half_square. cbv zeta. fold (squares x).
    setoid_replace (2 * (sqrt (squares x) * sqrt (squares x) / 2) - squares x)%Q with (sqrt (squares x) * sqrt (squares x) - squares x)%Q by field.
    exact H.
  Qed.

  Lemma squares_moved : forall x i e, (i < length x)%nat -> (squares (moved x i e) == squares x + 2 * e * nth i x 0 + e * e)%Q.
  Proof.
    induction x as [|a x IH]; intros i e Hi; [simpl in Hi; lia|]. destruct i as [|i].
    - unfold moved, squares. cbn [firstn app skipn nth map Qsum]. ring.
    - unfold moved, squares in *. cbn [firstn app skipn nth map Qsum]. simpl in Hi. specialize (IH i e ltac:(lia)).
      cbn [skipn] in IH. rewrite IH. ring.
  Qed.

  Lemma abs_le a b : (Qabs a <= b)%Q <-> (- b <= a /\ a <= b)%Q.
  Proof. apply Qabs_Qle_condition. Qed.

  Lemma slope_near x i : (i < length x)%nat -> (Qabs (slope eps half_square x i - nth i x 0) <= delta / (2 * eps))%Q.
  Proof.
    intros Hi. unfold slope.
    pose proof (half_square_near (moved x i eps)) as H1. pose proof (half_square_near (moved x i (- eps))) as H2.
    pose proof (squares_moved x i eps Hi) as S1. pose proof (squares_moved x i (- eps) Hi) as S2.
    assert (2 * eps * nth i x 0 == 2 * (eps * nth i x 0))%Q as E1 by ring.
    assert (2 * - eps * nth i x 0 == - (2 * (eps * nth i x 0)))%Q as E2 by ring.
    assert (- eps * - eps == eps * eps)%Q as E3 by ring. rewrite E1 in S1. rewrite E2, E3 in S2.
    rewrite S1 in H1. rewrite S2 in H2. apply abs_le in H1. apply abs_le in H2. apply abs_le.
    set (A := half_square (moved x i eps)) in *. set (B := half_square (moved x i (- eps))) in *.
    assert (0 < 2 * eps)%Q as P by lra.
    setoid_replace ((A - B) / (2 * eps) - nth i x 0)%Q with ((A - B - 2 * eps * nth i x 0) / (2 * eps))%Q by (field; lra).
    setoid_replace (- (delta / (2 * eps)))%Q with ((- delta) / (2 * eps))%Q by (field; lra).
    unfold Qdiv. assert (0 <= / (2 * eps))%Q as I by (apply Qinv_le_0_compat; lra).
    split; apply Qmult_le_compat_r; auto; rewrite E1; generalize dependent (eps * nth i x 0)%Q; generalize (eps * eps)%Q; intros; lra.
  Qed.

  Lemma squares_distance : forall x y, length x = length y ->
    (squares y == squares x + 2 * sum_below (length x) (fun i => nth i x 0 * (nth i y 0 - nth i x 0)) + distance2 x y)%Q.
  Proof.
    unfold distance2. induction x as [|a x IH]; intros [|b y] HL; try discriminate; [reflexivity|].
    unfold squares in *. cbn [map Qsum length]. rewrite IH by (simpl in HL; lia). rewrite !sum_below_S. cbn [nth]. ring.
  Qed.

  Lemma sum_below_abs n f g : (Qabs (sum_below n f - sum_below n g) <= sum_below n (fun i => Qabs (f i - g i)))%Q.
  Proof.
    revert f g. induction n as [|n IH]; intros f g; [apply Qle_refl|]. rewrite !sum_below_S.
    specialize (IH (fun i => f (S i)) (fun i => g (S i))).
    setoid_replace (f O + sum_below n (fun i => f (S i)) - (g O + sum_below n (fun i => g (S i))))%Q
      with ((f O - g O) + (sum_below n (fun i => f (S i)) - sum_below n (fun i => g (S i))))%Q by ring.
    eapply Qle_trans; [apply Qabs_triangle|]. apply Qplus_le_compat; [apply Qle_refl|exact IH].
  Qed.

  Lemma divergence_near x y : length x = length y ->
    (Qabs (2 * divergence eps half_square x y - distance2 x y) <= delta * (2 + distance1 x y / eps))%Q.
  Proof.
    intros HL. unfold divergence.
    pose proof (half_square_near x) as H1. pose proof (half_square_near y) as H2. apply abs_le in H1. apply abs_le in H2.
    pose proof (squares_distance x y HL) as HS.
    set (A := sum_below (length x) (fun i => slope eps half_square x i * (nth i y 0 - nth i x 0))%Q).
    set (B := sum_below (length x) (fun i => nth i x 0 * (nth i y 0 - nth i x 0))%Q) in *.
    assert (Qabs (A - B) <= delta / (2 * eps) * distance1 x y)%Q as HAB.
    { unfold A, B. eapply Qle_trans; [apply sum_below_abs|]. unfold distance1. rewrite <- sum_below_scale. apply sum_below_le. intros i Hi.
      setoid_replace (slope eps half_square x i * (nth i y 0 - nth i x 0) - nth i x 0 * (nth i y 0 - nth i x 0))%Q
        with ((slope eps half_square x i - nth i x 0) * (nth i y 0 - nth i x 0))%Q by ring.
      rewrite Qabs_Qmult. apply Qmult_le_compat_r; [apply slope_near; exact Hi|apply Qabs_nonneg]. }
    apply abs_le in HAB. apply abs_le.
    assert (delta / (2 * eps) * distance1 x y == delta * (distance1 x y / eps) / 2)%Q as EQ by (field; lra).
    rewrite EQ in HAB. set (K := (delta * (distance1 x y / eps))%Q) in *.
    setoid_replace (delta * (2 + distance1 x y / eps))%Q with (2 * delta + K)%Q by (unfold K; ring).
    assert (K / 2 == (1 # 2) * K)%Q as EK by field. rewrite EK in HAB. split; lra.
  Qed.
  Lemma half_square_comp : (forall a b, (a == b)%Q -> (sqrt a == sqrt b)%Q) -> respects_eq Qeq half_square.
  Proof.
    intros Hc x y Hxy. unfold half_square. cbv zeta.
    assert (sqrt (Qsum (map (fun j => (j * j)%Q) x)) == sqrt (Qsum (map (fun j => (j * j)%Q) y)))%Q as E.
    { apply Hc. induction Hxy as [|a b x y Hab Hxy IH]; [reflexivity|]. cbn [map Qsum]. rewrite Hab, IH. reflexivity. }
    rewrite E. reflexivity.
  Qed.
End Euclid.

(** Balanced descent with half the squared Euclidean norm: closest in Euclidean distance. *)
Lemma obd_euclidean_spec {C D} nlopt (Hex : exact_nlopt nlopt) eps sqrt delta l (o : online (gsco Q C D)) t xs H :
  let p := on_p o in let d := length (o_bounds p) in let prev := previous d xs in
  on_w o = 0 -> o_d p = Z.of_nat d -> length prev = d ->
  aligned (o_bounds p) -> charges (o_cost p) (o_bounds p) t H -> respects_eq eeq H ->
  (0 < eps)%Q -> (forall a b, (a == b)%Q -> (sqrt a == sqrt b)%Q) ->
  (forall q, (0 <= q)%Q -> (Qabs (sqrt q * sqrt q - q) <= delta)%Q) ->
  exists x, obd nlopt eps l (norm_squared (euclidean_norm sqrt)) o t xs tt = Ok (x, None) /\
    grid (o_bounds p) x /\
    ((exists z, grid (o_bounds p) z /\ ele (H z) (Fin l)) -> ele (H x) (Fin l)) /\
    ((exists z, grid (o_bounds p) z /\ ele (H z) (Fin l)) ->
     (forall z, grid (o_bounds p) z -> ele (H z) (Fin (l + (1 # 1000))) -> ele (H z) (Fin l)) ->
     forall z, grid (o_bounds p) z -> ele (H z) (Fin l) ->
       (distance2 prev x <= distance2 prev z + delta * (4 + (distance1 prev x + distance1 prev z) / eps))%Q).
Proof.
  intros p d prev Hw Hd Lp Ha Hc HH He Hsc Hsq.
  destruct (obd_spec nlopt Hex eps l (norm_squared (euclidean_norm sqrt)) (half_square sqrt) o t xs H Hw Hd Lp Ha Hc HH
             (half_square_computes sqrt _) (half_square_comp sqrt Hsc)) as (x & E & _ & H1 & H2).
  exists x. split; [exact E|].
  assert (grid (o_bounds p) x) as Hg. { destruct H1 as [G|G]; apply G. }
  split; [exact Hg|]. split.
  - intros (z & Hz & Lz). destruct H1 as [G|G]; [apply G|]. eapply ele_trans; [apply (proj2 G z Hz)|exact Lz].
  - intros Hne HT z Hz Lz. destruct (H2 Hne HT) as (_ & _ & HB). specialize (HB z Hz Lz). fold p d prev in HB.
    assert (length prev = length x) as L1 by (rewrite (in_boxQ_length _ _ (proj1 Hg)); exact Lp).
    assert (length prev = length z) as L2 by (rewrite (in_boxQ_length _ _ (proj1 Hz)); exact Lp).
    pose proof (divergence_near sqrt delta Hsq eps He prev x L1) as D1. pose proof (divergence_near sqrt delta Hsq eps He prev z L2) as D2.
    apply abs_le in D1. apply abs_le in D2.
    assert (delta * (4 + (distance1 prev x + distance1 prev z) / eps) ==
            delta * (2 + distance1 prev x / eps) + delta * (2 + distance1 prev z / eps))%Q as EQ by (field; lra).
    rewrite EQ. lra.
Qed.

(** ** Statements for the property file *)
Lemma static_rejects {C D} (vmerge : C -> C -> outcome C) (merge : C -> C -> C) (outside : D) nlopt
    (sched : list Q -> split) (p : gsco Q C D) alpha l q :
  static_fractional vmerge merge outside nlopt sched p true alpha l = Err UnsupportedInvertedCost /\
  (~ (q == 0)%Q -> static_fractional vmerge merge outside nlopt sched p false alpha (Some q) = Err UnsupportedLConstrainedMovement).
Proof.
  split; [reflexivity|]. intros H. unfold static_fractional. destruct (Qeq_bool q 0) eqn:E; [|reflexivity].
  apply Qeq_bool_iff in E. contradiction.
Qed.

Lemma all_within_bounds {C D} (vmerge : C -> C -> outcome C) (outside : D) nlopt : keeps_bounds nlopt ->
  forall brent eps sqrt (o : online (gsco Q C D)) xs,
  let bounds := o_bounds (on_p o) in
  aligned bounds ->
  forall h l beta eta steps m mu gamma alpha theta r t x mem mem',
  (obd nlopt eps l h o t xs tt = Ok (x, mem) -> in_boxQ bounds x) /\
  (pobd vmerge outside nlopt brent eps beta h o t xs tt = Ok (x, mem) -> in_boxQ bounds x) /\
  (dobd vmerge outside nlopt brent eps eta h o t xs tt = Ok (x, mem) -> in_boxQ bounds x) /\
  ((0 <= mu * sqrt m)%Q ->
   gobd vmerge outside nlopt brent eps sqrt m mu gamma h o t xs tt = Ok (x, mem) -> in_boxQ bounds x) /\
  (robd vmerge outside nlopt sqrt m alpha beta o t xs tt = Ok (x, mem) -> in_boxQ bounds x) /\
  (ogd vmerge outside nlopt eps sqrt steps o t xs tt = Ok (x, mem) -> in_boxQ bounds x) /\
  (length bounds = 1%nat -> rbg vmerge outside nlopt theta o t xs r = Ok (x, mem') -> in_boxQ bounds x).
Proof.
  intros Hk brent eps sqrt o xs bounds Ha h l beta eta steps m mu gamma alpha theta r t x mem mem'.
  split; [intros E; apply obd_grid in E; auto; apply E|].
  split; [intros E; apply pobd_grid in E; auto; apply E|].
  split; [intros E; apply dobd_grid in E; auto; apply E|].
  split; [intros Hs E; apply gobd_box in E; auto|].
  split; [intros E; apply robd_grid in E; auto; apply E|].
  split; [intros E; apply ogd_grid in E; auto; apply E|].
  intros HL E. apply rbg_box in E; auto. apply E.
Qed.

Lemma memoryless_box {C D} (vmerge : C -> C -> outcome C) (outside : D) nlopt (o : online (gssco Q C D)) xs t u x m :
  keeps_bounds nlopt -> g_bounds (on_p o) = [u] -> (0 <= u)%Q -> hundredths u ->
  memoryless vmerge outside nlopt o t xs tt = Ok (x, m) -> in_boxQ [(0%Q, u)] x.
Proof. intros Hk Hu H0 Hh E. apply (memoryless_grid _ _ _ _ _ _ u) in E; auto. apply E. Qed.

Lemma windows_err {C D} (vmerge : C -> C -> outcome C) (outside : D) nlopt brent eps sqrt (o : online (gsco Q C D))
    (o' : online (gssco Q C D)) xs h l beta eta steps m mu gamma alpha theta r t :
  on_w o <> 0 -> on_w o' <> 0 ->
  obd nlopt eps l h o t xs tt = Err UnsupportedPredictionWindow /\
  pobd vmerge outside nlopt brent eps beta h o t xs tt = Err UnsupportedPredictionWindow /\
  dobd vmerge outside nlopt brent eps eta h o t xs tt = Err UnsupportedPredictionWindow /\
  gobd vmerge outside nlopt brent eps sqrt m mu gamma h o t xs tt = Err UnsupportedPredictionWindow /\
  robd vmerge outside nlopt sqrt m alpha beta o t xs tt = Err UnsupportedPredictionWindow /\
  ogd vmerge outside nlopt eps sqrt steps o t xs tt = Err UnsupportedPredictionWindow /\
  rbg vmerge outside nlopt theta o t xs r = Err UnsupportedPredictionWindow /\
  memoryless vmerge outside nlopt o' t xs tt = Err UnsupportedPredictionWindow.
Proof.
  intros H1 H2. apply Z.eqb_neq in H1, H2.
  unfold obd, pobd, dobd, gobd, robd, ogd, rbg, memoryless. rewrite H1, H2. repeat split; reflexivity.
Qed.

Lemma dobd_spec {C D} (vmerge : C -> C -> outcome C) (outside : D) nlopt : exact_nlopt nlopt ->
  forall brent eps h hf (o : online (gsco Q C D)) xs H,
  let p := on_p o in let bounds := o_bounds p in let d := length bounds in let prev := previous d xs in
  let t := Z.of_nat (length xs) + 1 in
  on_w o = 0 -> o_d p = Z.of_nat d -> length prev = d ->
  aligned bounds -> charges (o_cost p) bounds t H -> respects_eq eeq H ->
  computes d h hf -> respects_eq Qeq hf ->
  forall eta x mem, dobd vmerge outside nlopt brent eps eta h o t xs tt = Ok (x, mem) ->
  mem = None /\ exists a b f l, (forall v, cheapest bounds H v -> eeq (H v) (Fin a)) /\
    find_root brent a b f = Ok l /\ descends bounds H (divergence eps hf prev) l x.
Proof.
  intros Hex brent eps h hf o xs H p bounds d prev t Hw Hd Lp Ha Hc HH Hh Hhf eta x mem E.
  unfold dobd in E. rewrite Hw in E. cbn [Z.eqb negb] in E. fold p bounds in E.
  destruct (cheapest_spec nlopt Hex (o_cost p) bounds t H Ha Hc HH) as (v & opt & Ev & Hv & _ & Ho).
  rewrite Ev in E. cbn [obind snd] in E. destruct opt as [|a|]; try discriminate. cbn [obind] in E.
  apply obind_Ok in E as (b & _ & E). apply obind_Ok in E as (l & El & E). unfold obd_next, alg_next in E. fold t in E.
  destruct (obd_spec nlopt Hex eps l h hf o t xs H Hw Hd Lp Ha Hc HH Hh Hhf) as (x' & E' & _ & HX).
  rewrite E' in E. injection E as <- <-. split; [reflexivity|].
  exists a. eexists. eexists. exists l. split; [|split; [exact El|exact HX]].
  intros w Hw'. pose proof (proj2 Hv w (proj1 Hw')) as L1. pose proof (proj2 Hw' v (proj1 Hv)) as L2.
  destruct (H v), (H w); simpl in *; try contradiction. lra.
Qed.
