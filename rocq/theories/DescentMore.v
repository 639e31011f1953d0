(** Proofs about gradient descent, the memoryless algorithm, randomly biased greedy and the
    static fractional optimum. *)
From Coq Require Import Lia Lqa Qabs.
From Verif Require Import NumLemmas DescentModel DescentSpec OptimizeProofs OptimizeBrute CostSpec CostProofs ObjectiveProofs
  HorizonProofs GraphSearchCosts DescentProofs DescentAlgorithms.
From Verif Require Import ProblemModel CostModel.
Local Open Scope Z_scope.

(** ** Online gradient descent *)
Lemma nminus_fin : forall x y, length x = length y -> nminus (map Num x) (map Num y) = Ok (map Num (minus x y)).
Proof.
  unfold nminus. induction x as [|a x IH]; intros [|b y] HL; try discriminate; [reflexivity|].
  cbn [map combine omap fst snd nsub obind]. rewrite IH by (simpl in HL; lia). reflexivity.
Qed.
Lemma finite_map x : forallb finite (map Num x) = true.
Proof. induction x; auto. Qed.
Lemma squares_sum y : forall x, length x = length y ->
  (Qsum (map (fun j => match j with Num q => (q * q)%Q | _ => 0%Q end) (map Num (minus x y))) == distance2 x y)%Q.
Proof.
  unfold distance2. induction y as [|b y IH]; intros [|a x] HL; try discriminate; [reflexivity|].
  change (minus (a :: x) (b :: y)) with ((a - b)%Q :: minus x y). cbn [map Qsum]. rewrite IH by (simpl in HL; lia).
  cbn [length]. rewrite sum_below_S. cbn [nth]. ring.
Qed.
Lemma euclidean_fin sqrt x y : length x = length y ->
  (forall a b, a == b -> sqrt a == sqrt b)%Q ->
  exists q, euclidean sqrt (map Num (minus x y)) = Num q /\ (q == sqrt (distance2 x y))%Q.
Proof.
  intros HL Hs. unfold euclidean. rewrite finite_map. eexists. split; [reflexivity|]. apply Hs. apply squares_sum. exact HL.
Qed.
Lemma distance2_comp x x' y : Forall2 Qeq x x' -> (distance2 x y == distance2 x' y)%Q.
Proof.
  intros H. unfold distance2. rewrite (Forall2_len _ _ _ H). apply sum_below_ext. intros i _.
  rewrite (nth_comp x x' i H). reflexivity.
Qed.

Lemma times_length c x : length (times c x) = length x.
Proof. apply map_length. Qed.
Lemma minus_times_nth c : forall u w i, length u = length w ->
  (nth i (minus u (times c w)) 0 == nth i u 0 - c * nth i w 0)%Q.
Proof.
  induction u as [|a u IH]; intros [|b w] i HL; simpl in HL; try lia.
  - destruct i; cbn; ring.
  - change (minus (a :: u) (times c (b :: w))) with ((a - c * b)%Q :: minus u (times c w)).
    destruct i as [|i]; cbn [nth]; [reflexivity|]. apply IH. lia.
Qed.
Lemma nth_map_seq (f : nat -> Q) n i : (i < n)%nat -> nth i (map f (seq 0 n)) 0%Q = f i.
Proof.
  intros Hi. rewrite (nth_indep _ 0%Q (f 0%nat)) by (rewrite map_length, seq_length; exact Hi).
  rewrite (map_nth f), seq_nth by exact Hi. reflexivity.
Qed.

Section Gradient.
  Context {C D : Type}.
  Variable vmerge : C -> C -> outcome C.
  Variable outside : D.
  Variable nlopt : nl_problem -> outcome nl_result.
  Hypothesis Hex : exact_nlopt nlopt.
  Variable eps : Q.
  Variable sqrt : Q -> Q.
  Hypothesis Hsq : forall a b, (a == b -> sqrt a == sqrt b)%Q.
  Hypothesis Hmono : forall a b, (0 <= a -> a < b -> sqrt a < sqrt b)%Q.

  Lemma distance2_nonneg x y : (0 <= distance2 x y)%Q.
  Proof.
    unfold distance2. apply Qle_trans with (sum_below (length x) (fun _ => 0%Q)).
    - induction (length x) as [|n IH]; [apply Qle_refl|]. rewrite sum_below_S. lra.
    - apply sum_below_le. intros i _. destruct (Qlt_le_dec (nth i y 0 - nth i x 0)%Q 0%Q).
      + assert (0 <= - (nth i y 0 - nth i x 0) * - (nth i y 0 - nth i x 0))%Q by (apply Qmult_le_0_compat; lra). lra.
      + apply Qmult_le_0_compat; lra.
  Qed.

  Lemma project_spec bounds y : aligned bounds -> length y = length bounds ->
    exists x, project_onto nlopt sqrt bounds (map Num y) = Ok x /\ grid bounds x /\
      forall z, grid bounds z -> (distance2 x y <= distance2 z y)%Q.
  Proof.
    intros Ha HL. unfold project_onto.
    destruct (find_minimizer_spec nlopt Hex
      (fun x => do d <- nminus (map Num x) (map Num y); Ok (euclidean sqrt d)) (fun x => Num (sqrt (distance2 x y))) bounds Ha)
      as (x & w & E & _ & _ & _ & Hg & Hm).
    - intros x [Hx _]. apply in_boxQ_length in Hx. rewrite nminus_fin by lia. cbn [obind].
      destruct (euclidean_fin sqrt x y) as (q & E & Hq); [lia|exact Hsq|]. rewrite E. exists (Num q). split; [reflexivity|exact Hq].
    - intros x z Hxz. simpl. apply Hsq. apply distance2_comp. exact Hxz.
    - rewrite E. cbn [obind fst]. exists x. split; [reflexivity|]. split; [exact Hg|]. intros z Hz.
      specialize (Hm z Hz). simpl in Hm. destruct (Qlt_le_dec (distance2 z y) (distance2 x y)) as [L|L]; [|exact L].
      apply Hmono in L; [lra|apply distance2_nonneg].
  Qed.

  Variable o : online (gsco Q C D).
  Variable xs : list (list Q).
  Variable F : list Q -> Q.
  Let p := on_p o.
  Let bounds := o_bounds p.
  Let d := length bounds.
  Let prev := previous d xs.
  Variable t : Z.
  Hypothesis Hw : on_w o = 0.
  Hypothesis Hd : o_d p = Z.of_nat d.
  Hypothesis Ha : aligned bounds.
  Hypothesis Hc : charges (o_cost p) bounds t (fun x => Fin (F x)).
  Hypothesis Hp : length prev = d.
  Hypothesis Hin : forall i, (i < d)%nat -> in_boxQ bounds (moved prev i eps) /\ in_boxQ bounds (moved prev i (- eps)).

  Lemma hit_gradient : exists g, gradient eps (hit_num vmerge outside p t) prev = Ok (map Num g) /\ length g = d /\
    forall i, (i < d)%nat -> (nth i g 0 == slope eps F prev i)%Q.
  Proof.
    unfold gradient.
    destruct (omap_nth (fun i => do a <- hit_num vmerge outside p t (bump prev i eps); do b <- hit_num vmerge outside p t (bump prev i (- eps));
        match a, b with
        | Num u, Num v => Ok (Num ((u - v) / (2 * eps)))
        | PosInf, PosInf | NegInf, NegInf => Ok (Num 0)
        | PosInf, _ | _, NegInf => Ok PosInf
        | NegInf, _ | _, PosInf => Ok NegInf
        end) (fun i v => exists q, v = Num q /\ (q == slope eps F prev i)%Q) (seq 0 (length prev))) as (r & Er & Rr).
    - intros i Hi. apply in_seq in Hi. rewrite !bump_moved by lia. destruct (Hin i) as [I1 I2]; [lia|].
      destruct (hit_num_inside vmerge outside p t _ _ Hc I1) as (u & Eu & Qu).
      destruct (hit_num_inside vmerge outside p t _ _ Hc I2) as (w & Ew & Qw).
      rewrite Eu, Ew. cbn [obind]. destruct u as [|u|], w as [|w|]; simpl in Qu, Qw; try contradiction.
      eexists. split; [reflexivity|]. eexists. split; [reflexivity|]. unfold slope. rewrite Qu, Qw. reflexivity.
    - rewrite Er. clear Er.
      assert (exists g, r = map Num g /\ Forall2 (fun i q => (q == slope eps F prev i)%Q) (seq 0 (length prev)) g) as (g & -> & Rg).
      { induction Rr as [|i v l r (q & -> & Hq) Rr (g & -> & Rg)].
        - exists []. split; [reflexivity|constructor].
        - exists (q :: g). split; [reflexivity|constructor; auto]. }
      exists g. split; [reflexivity|]. rewrite Hp in Rg. apply (Forall2_seq _ 0%Q) in Rg. exact Rg.
  Qed.

  Lemma omap_scale c g : omap (nscale c) (map Num g) = Ok (map Num (times c g)).
  Proof. induction g as [|a g IH]; [reflexivity|]. cbn [map omap nscale obind]. rewrite IH. reflexivity. Qed.

  Lemma ogd_spec eta :
    let y := map (fun i => nth i prev 0 - eta t * slope eps F prev i)%Q (seq 0 d) in
    exists x, ogd vmerge outside nlopt eps sqrt eta o t xs tt = Ok (x, None) /\ grid bounds x /\
      forall z, grid bounds z -> (distance2 x y <= distance2 z y)%Q.
  Proof.
    intros y. unfold ogd. rewrite Hw. cbn [Z.eqb negb]. fold p bounds. rewrite (previous_now p xs Hd). fold bounds d prev.
    destruct hit_gradient as (g & Eg & Lg & Hg). rewrite Eg. cbn [obind]. rewrite omap_scale. cbn [obind].
    rewrite nminus_fin by (rewrite times_length; lia). cbn [obind].
    destruct (project_spec bounds (minus prev (times (eta t) g)) Ha) as (x & E & HX & Hm).
    { rewrite minus_length; [exact Hp|]. rewrite times_length. lia. }
    rewrite E. cbn [obind]. exists x. split; [reflexivity|]. split; [exact HX|].
    assert (forall i, (i < d)%nat -> (nth i (minus prev (times (eta t) g)) 0 == nth i y 0)%Q) as HY.
    { intros i Hi. unfold y. rewrite (nth_map_seq (fun i => nth i prev 0 - eta t * slope eps F prev i)%Q) by exact Hi.
      rewrite minus_times_nth by lia. rewrite (Hg i Hi). reflexivity. }
    intros z Hz. specialize (Hm z Hz).
    assert (forall z, grid bounds z -> (distance2 z (minus prev (times (eta t) g)) == distance2 z y)%Q) as HD.
    { intros z' [Hz' _]. unfold distance2. apply sum_below_ext. intros i Hi. rewrite HY; [reflexivity|].
      apply in_boxQ_length in Hz'. unfold d. lia. }
    rewrite <- (HD x HX), <- (HD z Hz). exact Hm.
  Qed.
End Gradient.

(** ** Memoryless algorithm *)
Section Memoryless.
  Context {C D : Type}.
  Variable vmerge : C -> C -> outcome C.
  Variable outside : D.
  Variable nlopt : nl_problem -> outcome nl_result.
  Hypothesis Hex : exact_nlopt nlopt.
  Variable o : online (gssco Q C D).
  Variable xs : list (list Q).
  Variable H : Q -> ext.
  Let p := on_p o.
  Variables u b prev : Q.
  Variable t : Z.
  Hypothesis Hw : on_w o = 0.
  Hypothesis Hd : g_d p = 1.
  Hypothesis Hu : g_bounds p = [u].
  Hypothesis Hb : g_switching p = [b].
  Hypothesis Hpr : previous 1 xs = [prev].
  Hypothesis Hu0 : (0 <= u)%Q /\ hundredths u.
  Hypothesis Hp0 : (0 <= prev <= u)%Q /\ hundredths prev.
  Hypothesis Hc : forall x, (0 <= x <= u)%Q -> exists c, call_mean vmerge (g_cost p) t [x] = Ok c /\ eeq (c_cost c) (H x).
  Hypothesis HH : forall x y, (x == y)%Q -> eeq (H x) (H y).
  Hypothesis Hpos : forall x, (0 <= x <= u)%Q -> ele (Fin 0) (H x).

  Let bounds := [(0%Q, u)].
  Lemma ml_box x : in_boxQ bounds x <-> exists j, x = [j] /\ (0 <= j <= u)%Q.
  Proof.
    split.
    - intros G. inversion G as [|? j ? l G1 G2]; subst. inversion G2; subst. eauto.
    - intros (j & -> & G). constructor; [exact G|constructor].
  Qed.
  Lemma ml_hit x j : x = [j] -> (0 <= j <= u)%Q ->
    exists c, gssco_hit valQ vmerge outside p t x = Ok c /\ eeq (c_cost c) (H j).
  Proof.
    intros -> G. rewrite gssco_hit_inside.
    - apply Hc. exact G.
    - reflexivity.
    - rewrite Hu. constructor; [exact G|constructor].
  Qed.

  Lemma memoryless_spec :
    exists x, memoryless vmerge outside nlopt o t xs tt = Ok ([x], None) /\
      ((0 <= x <= u)%Q /\ hundredths x) /\
      ele (Fin (b * Qabs (x - prev))) (eadd (escale (1 # 2) (H x)) (Fin (1 # 1000))) /\
      forall z, (0 <= z <= u)%Q -> hundredths z -> ele (Fin (b * Qabs (z - prev))) (escale (1 # 2) (H z)) -> ele (H x) (H z).
  Proof.
    unfold memoryless. rewrite Hw. cbn [Z.eqb negb]. fold p. rewrite Hd. cbn [Z.eqb Pos.eqb negb].
    change [0%Q] with (repeat 0%Q 1). fold (previous 1 xs). rewrite Hpr. cbn [nth_error from_option obind].
    unfold memoryless_next. rewrite Hu, Hb. cbn [nth_error from_option obind].
    set (G := fun x => match x with
       | [j] => match H j with Fin q => Num (b * Qabs (j - prev) - (1 # 2) * q) | Inf => NegInf end | _ => Num 0 end).
    set (F := fun x => match x with [j] => num_of (H j) | _ => PosInf end).
    assert (aligned bounds) as Ha.
    { constructor; [|constructor]. simpl. split; [exists 0; reflexivity|]. tauto. }
    assert (forall j tol, num_le (G [j]) (Num tol) <-> ele (Fin (b * Qabs (j - prev))) (eadd (escale (1 # 2) (H j)) (Fin tol))) as HG.
    { intros j tol. unfold G. destruct (H j); cbn; [|tauto]. split; intros; lra. }
    destruct (minimize_spec nlopt Hex
      (fun x => do c <- gssco_hit valQ vmerge outside p t x; Ok (num_of (c_cost c))) F bounds None
      [fun x => do x0 <- from_option (nth_error x 0);
       do c <- gssco_hit valQ vmerge outside p t [x0];
       do h <- nscale (1 # 2) (num_of (c_cost c));
       nsub (Num (b * Qabs (x0 - prev))) h] [G]) as (x & v & E & Hg & _ & _ & _ & Hopt).
    - exact Ha.
    - left. reflexivity.
    - intros x [Hx _]. apply ml_box in Hx as (j & Ej & Hj). destruct (ml_hit x j Ej Hj) as (c & E & Ec). rewrite E. cbn [obind].
      eexists. split; [reflexivity|]. subst x. apply num_of_eq. exact Ec.
    - intros x y Hxy. destruct Hxy as [|i j x y Hij Hxy]; [exact I|]. destruct Hxy; [|exact I]. simpl. apply num_of_eq, HH, Hij.
    - constructor; [|constructor]. intros x [Hx _]. apply ml_box in Hx as (j & Ej & Hj).
      subst x. cbn [nth_error from_option obind]. destruct (ml_hit [j] j eq_refl Hj) as (c & E & Ec). rewrite E. cbn [obind]. unfold G.
      destruct (c_cost c) as [q|], (H j) as [q'|]; simpl in Ec; try contradiction; cbn.
      + eexists. split; [reflexivity|]. simpl. rewrite Ec. reflexivity.
      + eexists. split; [reflexivity|]. exact I.
    - constructor; [|constructor]. intros x y Hxy. destruct Hxy as [|i j x y Hij Hxy]; [reflexivity|]. destruct Hxy; [|reflexivity].
      unfold G. pose proof (HH i j Hij) as E. destruct (H i), (H j); cbn [num_eq eeq] in *; auto. rewrite E, Hij. reflexivity.
    - match goal with |- context [minimize nlopt ?f ?bs None ?cs] =>
        replace (minimize nlopt f bs None cs) with (@Ok (list Q * fnum) (x, v)) by (symmetry; exact E) end.
      cbn [obind fst]. destruct (proj1 (ml_box x) (proj1 Hg)) as (j & -> & Hj). cbn [nth_error from_option obind].
      assert (forall z, (0 <= z <= u)%Q -> hundredths z -> grid bounds [z]) as HGr.
      { intros z Hz Hz'. split; [apply ml_box; eauto|constructor; [exact Hz'|constructor]]. }
      destruct Hopt as (S1 & S2).
      { exists [prev]. split; [apply HGr; tauto|]. constructor; [|constructor]. apply HG.
        destruct Hp0 as [P0 _]. specialize (Hpos prev P0).
        assert (b * Qabs (prev - prev) == 0)%Q as E0 by (setoid_replace (prev - prev)%Q with 0%Q by ring; change (Qabs 0) with 0%Q; ring).
        destruct (H prev); cbn [escale eadd ele] in *; [lra|exact I]. }
      exists j. split; [reflexivity|]. split; [split; [exact Hj|]|split].
      + destruct Hg as [_ Hg]. inversion Hg; auto.
      + inversion S1 as [|? ? S _]; subst. apply HG in S. exact S.
      + intros z Hz Hz' L. apply num_of_le. apply (S2 [z]); [apply HGr; auto|]. constructor; [|constructor].
        apply HG. destruct (H z); simpl in *; [lra|exact I].
  Qed.
End Memoryless.

(** ** Randomly biased greedy *)
Section Greedy.
  Context {C D : Type}.
  Variable vmerge : C -> C -> outcome C.
  Variable outside : D.
  Variable nlopt : nl_problem -> outcome nl_result.
  Hypothesis Hex : exact_nlopt nlopt.
  Variable p : gsco Q C D.
  Variable H : Z -> list Q -> ext.
  Variable N : list Q -> Q.
  Variable theta : Q.
  Let bounds := o_bounds p.
  Let d := length bounds.
  Variable T : nat.
  Hypothesis Ha : aligned bounds.
  Hypothesis Hc : forall t, 1 <= t <= Z.of_nat T -> charges (o_cost p) bounds t (H t).
  Hypothesis HH : forall t, respects_eq eeq (H t).
  Hypothesis Hn : computes d (o_norm p) N.
  Hypothesis HN : respects_eq Qeq N.

  Lemma work_cost_comp ys x y : Forall2 Qeq x y -> eeq (work_cost H N d theta ys x) (work_cost H N d theta ys y).
  Proof.
    intros E. unfold work_cost. apply eadd_proper; [reflexivity|]. simpl.
    rewrite (HN _ _ (difference_comp _ _ _ _ E (Forall2_Qeq_refl (previous d ys)))). reflexivity.
  Qed.
  Lemma least_work_comp n x y w w' : Forall2 Qeq x y -> eeq w w' -> least_work bounds H N theta n x w -> least_work bounds H N theta n y w'.
  Proof.
    intros E Ew [(ys & L & G & V) M]. split.
    - exists ys. split; [exact L|]. split; [exact G|]. rewrite <- Ew, V. apply (work_cost_comp ys x y E).
    - intros zs Lz Gz. rewrite <- Ew. eapply ele_trans; [apply (M zs Lz Gz)|]. apply eeq_ele, (work_cost_comp zs x y E).
  Qed.
  Lemma least_work_unique n x w w' : least_work bounds H N theta n x w -> least_work bounds H N theta n x w' -> eeq w w'.
  Proof.
    intros [(ys & L & G & V) M] [(ys' & L' & G' & V') M']. apply ele_antisym.
    - rewrite V'. apply M; auto.
    - rewrite V. apply M'; auto.
  Qed.

  Lemma work_cost_snoc ys y x :
    eeq (work_cost H N d theta (ys ++ [y]) x)
        (eadd (eadd (work_cost H N d theta ys y) (H (1 + Z.of_nat (length ys)) y)) (Fin (theta * N (differenceQ x y)))).
  Proof.
    unfold work_cost. rewrite total_cost_snoc. unfold previous. rewrite last_last.
    apply eadd_proper; [|reflexivity].
    generalize (total_cost H (fun prev x0 : list Q => N (differenceQ x0 prev)) theta 1 (repeat 0%Q d) ys) as a.
    generalize (H (1 + Z.of_nat (length ys)) y) as c.
    generalize (theta * N (differenceQ y (last ys (repeat 0%Q d))))%Q as e.
    intros e [c|] [a|]; simpl; auto. ring.
  Qed.

  Definition value_of (v : outcome fnum) : ext := match v with Ok (Num q) => Fin q | _ => Inf end.

  Lemma work_spec : forall n, (n <= T)%nat -> forall x, grid bounds x ->
    exists v w, work vmerge outside nlopt p theta n x = Ok v /\ num_eq v (num_of w) /\ least_work bounds H N theta n x w.
  Proof.
    induction n as [|n IH]; intros Hn' x Hx.
    - cbn [work]. destruct (Hn x) as (q & E & Hq). { apply in_boxQ_length. apply Hx. }
      rewrite E. cbn [obind]. exists (Num (theta * q)), (Fin (theta * q)). split; [reflexivity|]. split; [reflexivity|].
      assert (eeq (Fin (theta * q)) (work_cost H N d theta [] x)) as EW.
      { unfold work_cost. cbn [total_cost previous last]. simpl.
        assert (N x == N (differenceQ x (repeat 0%Q d)))%Q as EN.
        { apply HN. assert (length x = d) as L by (apply in_boxQ_length; apply Hx). clear -L. rewrite <- L. clear.
          induction x as [|j x IH]; [constructor|]. cbn. constructor; [ring|]. exact IH. }
        rewrite Hq, EN. ring. }
      split.
      + exists []. split; [reflexivity|]. split; [constructor|exact EW].
      + intros ys L _. destruct ys; [|discriminate]. apply eeq_ele. exact EW.
    - assert (n <= T)%nat as Hle by lia. specialize (IH Hle). cbn [work].
      set (W := fun y => value_of (work vmerge outside nlopt p theta n (map apply_precision y))).
      assert (forall y, grid bounds y -> least_work bounds H N theta n y (W y)) as HW.
      { intros y Hy. destruct (IH (map apply_precision y)) as (v & w & E & Ev & L).
        { apply map_ap_grid; [exact Ha|apply Hy]. }
        unfold W. rewrite E. eapply least_work_comp; [apply map_ap_eq, Hy| |exact L].
        destruct v, w; simpl in *; try contradiction; auto. symmetry. exact Ev. }
      set (F := fun y => eadd (eadd (W y) (H (Z.of_nat (S n)) y)) (Fin (theta * N (differenceQ x y)))).
      destruct (find_minimizer_spec nlopt Hex
        (fun y => do w <- work vmerge outside nlopt p theta n y;
                  do c <- hit_num vmerge outside p (Z.of_nat (S n)) y;
                  do m <- o_norm p (minus x y);
                  do s <- nadd w c;
                  nadd s (Num (theta * m))) (fun y => num_of (F y)) bounds Ha) as (y & v & E & _ & _ & Hv & Hg & Hm).
      + intros y Hy. destruct (IH y Hy) as (v & w & Ew & Ev & L).
        pose proof (least_work_unique _ _ _ _ L (HW y Hy)) as EW.
        destruct (hit_num_inside vmerge outside p (Z.of_nat (S n)) (H (Z.of_nat (S n))) y) as (c & Ec & Hc').
        { apply Hc. lia. } { apply Hy. }
        destruct (Hn (minus x y)) as (m & Em & Qm).
        { rewrite minus_length; [apply in_boxQ_length; apply Hx|]. rewrite (in_boxQ_length _ _ (proj1 Hx)), (in_boxQ_length _ _ (proj1 Hy)). reflexivity. }
        rewrite Ew. cbn [obind]. rewrite Ec. cbn [obind]. rewrite Em. cbn [obind]. rewrite minus_difference in Qm. unfold F.
        destruct v as [|v|], w as [w|], (W y) as [w'|], c as [|c|], (H (Z.of_nat (S n)) y) as [q|]; simpl in *; try contradiction;
          (eexists; split; [reflexivity|]); simpl; auto. rewrite Ev, EW, Hc', Qm. reflexivity.
      + intros y z Hyz. apply num_of_eq. unfold F. apply eadd_proper; [apply eadd_proper|].
        * unfold W. assert (map apply_precision y = map apply_precision z) as ->; [|reflexivity].
          clear -Hyz. induction Hyz; simpl; f_equal; auto. apply ap_comp. auto.
        * apply HH. exact Hyz.
        * simpl. rewrite (HN _ _ (difference_comp _ _ _ _ (Forall2_Qeq_refl x) Hyz)). reflexivity.
      + fold bounds. fold (Z.of_nat (S n)). rewrite E. cbn [obind snd]. exists v, (F y). split; [reflexivity|]. split; [exact Hv|]. split.
        * destruct (HW y Hg) as [(ys & L & G & V) M]. exists (ys ++ [y]). split; [rewrite app_length; simpl; lia|].
          split; [apply Forall_app; split; [exact G|constructor; [exact Hg|constructor]]|].
          fold d. rewrite work_cost_snoc. unfold F. rewrite V. fold d.
          replace (1 + Z.of_nat (length ys)) with (Z.of_nat (S n)) by lia. reflexivity.
        * intros ys L G. assert (exists zs z, ys = zs ++ [z]) as (zs & z & ->).
          { destruct ys as [|a ys] using rev_ind; [discriminate|eauto]. }
          rewrite app_length in L. cbn [length] in L. apply Forall_app in G as [G1 G2]. inversion G2 as [|? ? Gz _]; subst.
          fold d. rewrite work_cost_snoc. replace (1 + Z.of_nat (length zs)) with (Z.of_nat (S n)) by lia.
          eapply ele_trans; [apply num_of_le; apply (Hm z Gz)|]. unfold F.
          apply eadd_mono; [|apply ele_refl]. apply eadd_mono; [|apply ele_refl].
          destruct (HW z Gz) as [_ M]. apply M; [lia|exact G1].
  Qed.

  Lemma rbg_spec o xs r : on_p o = p -> on_w o = 0 -> o_d p = 1 -> d = 1%nat -> T = S (length xs) ->
    exists x W, rbg vmerge outside nlopt theta o (Z.of_nat (length xs) + 1) xs r = Ok (x, None) /\
      grid bounds x /\ (forall z, grid bounds z -> least_work bounds H N theta T z (W z)) /\
      forall z, grid bounds z ->
        ele (eadd (W x) (Fin (r * theta * N x))) (eadd (W z) (Fin (r * theta * N z))).
  Proof.
    intros Ho Hw Hd Hd1 HT. unfold rbg. rewrite Hw, Ho, Hd. cbn [Z.eqb Pos.eqb negb].
    replace (Z.to_nat (Z.of_nat (length xs) + 1)) with T by lia.
    set (W := fun y => value_of (work vmerge outside nlopt p theta T (map apply_precision y))).
    assert (forall y, grid bounds y -> least_work bounds H N theta T y (W y)) as HW.
    { intros y Hy. destruct (work_spec T (le_n T) (map apply_precision y)) as (v & w & E & Ev & L).
      { apply map_ap_grid; [exact Ha|apply Hy]. }
      unfold W. rewrite E. eapply least_work_comp; [apply map_ap_eq, Hy| |exact L].
      destruct v, w; simpl in *; try contradiction; auto. symmetry. exact Ev. }
    destruct (find_minimizer_spec nlopt Hex
      (fun x => do w <- work vmerge outside nlopt p theta T x; do n <- o_norm p x; nadd w (Num (r * theta * n)))
      (fun x => num_of (eadd (W x) (Fin (r * theta * N x)))) bounds Ha) as (x & v & E & _ & _ & _ & Hg & Hm).
    - intros y Hy. destruct (work_spec T (le_n T) y Hy) as (v & w & Ew & Ev & L).
      pose proof (least_work_unique _ _ _ _ L (HW y Hy)) as EW.
      destruct (Hn y) as (q & Eq & Hq). { apply in_boxQ_length. apply Hy. }
      rewrite Ew. cbn [obind]. rewrite Eq. cbn [obind].
      destruct v as [|v|], w as [w|], (W y) as [w'|]; simpl in *; try contradiction; (eexists; split; [reflexivity|]); simpl; auto.
      rewrite Ev, EW, Hq. reflexivity.
    - intros y z Hyz. apply num_of_eq. apply eadd_proper.
      + unfold W. assert (map apply_precision y = map apply_precision z) as ->; [|reflexivity].
        clear -Hyz. induction Hyz; simpl; f_equal; auto. apply ap_comp. auto.
      + simpl. rewrite (HN _ _ Hyz). reflexivity.
    - fold bounds. rewrite E. cbn [obind fst].
      assert (exists j, x = [j]) as (j & ->).
      { pose proof (in_boxQ_length _ _ (proj1 Hg)) as L. fold d in L. rewrite Hd1 in L.
        destruct x as [|j [|? ?]]; simpl in L; try lia. eauto. }
      cbn [nth_error from_option obind]. exists [j], W. split; [reflexivity|]. split; [exact Hg|]. split; [exact HW|].
      intros z Hz. apply num_of_le. apply Hm. exact Hz.
  Qed.
End Greedy.

Lemma entropy_value log2 x :
  (Forall (fun j => 0 < j)%Q x ->
   exists q, negative_entropy log2 x = Ok q /\ (q == fold_right (fun j s => j * log2 j + s) 0 x)%Q) /\
  (Exists (fun j => j <= 0)%Q x -> negative_entropy log2 x = Panic).
Proof.
  unfold negative_entropy. induction x as [|j x [IH1 IH2]]; split.
  - intros _. exists 0%Q. split; reflexivity.
  - intros H. inversion H.
  - intros H. inversion H as [|? ? Hj Hx]; subst. destruct (IH1 Hx) as (q & Hq & E).
    cbn [omap fold_right]. rewrite (proj2 (Qltb_iff 0 j) Hj). cbn [obind].
    apply obind_Ok in Hq as (l & Hl & Hq). rewrite Hl. cbn [obind]. eexists. split; [reflexivity|].
    injection Hq as <-. cbn [Qsum]. rewrite E. reflexivity.
  - intros H. cbn [omap]. destruct (Qltb 0 j) eqn:Ej; [|reflexivity]. apply Qltb_iff in Ej.
    inversion H as [? ? Hj|? ? Hx]; subst; [exfalso; apply (Qlt_not_le _ _ Ej Hj)|].
    specialize (IH2 Hx). cbn [obind].
    destruct (omap (fun j0 => if Qltb 0 j0 then Ok (j0 * log2 j0)%Q else Panic) x); [discriminate IH2|discriminate IH2|reflexivity].
Qed.
