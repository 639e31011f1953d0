(** Integral costs: the objective function with rounding is exact as long as sums stay below the limit
    up to which all integers are numbers of the format. *)
From Coq Require Import Lqa.
From Verif Require Import NumLemmas ObjectiveSpec ObjectiveProofs Search1DModel GraphSearchSpec FloatModel FloatSpec FloatProofs
  FloatSearch Float1DModel Float1DExact.
From Verif Require Import ProblemModel.
Local Open Scope Z_scope.

Section Exact.
  Variable rnd : Q -> Q.
  Variable L : Z.
  Hypothesis rnd_int : forall q k, 0 <= k <= L -> (q == inject_Z k)%Q -> (rnd q == inject_Z k)%Q.
  Hypothesis L_nonneg : 0 <= L.

  Section Sums.
    Context {C D : Type}.
    Variable merge : C -> C -> C.
    Variable W : Z.
    Hypothesis W_nonneg : 0 <= W.
    Notation whole := (fun c : cost C D => intE W (c_cost c)).

    Lemma f_fold_int l : forall w c, Forall whole l -> intE w (c_cost c) -> w + Z.of_nat (length l) * W <= L ->
      eeq (c_cost (fold_left (f_cost_add rnd merge) l c)) (eadd (c_cost c) (esum (map c_cost l))) /\
      intE (w + Z.of_nat (length l) * W) (c_cost (fold_left (f_cost_add rnd merge) l c)).
    Proof.
      induction l as [|x l IH]; intros w c Hl Hc HL; cbn [fold_left map esum length] in *.
      - split; [symmetry; apply eadd_0_r|]. eapply intE_mono; [|exact Hc]. lia.
      - inversion Hl as [|? ? Hx Hl']; subst.
        destruct (fadd_int rnd L rnd_int w W (c_cost c) (c_cost x) Hc Hx) as [E1 E2]; [nia|].
        destruct (IH (w + W) (f_cost_add rnd merge c x) Hl' E2) as [G1 G2]; [nia|]. split.
        + rewrite G1. cbn [f_cost_add c_cost]. rewrite E1. rewrite eadd_assoc. reflexivity.
        + eapply intE_mono; [|exact G2]. nia.
    Qed.

    Lemma f_par_sum_int s : forall l, Forall whole l -> Z.of_nat (length l) * W <= L ->
      eeq (c_cost (f_par_sum rnd merge s l)) (esum (map c_cost l)) /\
      intE (Z.of_nat (length l) * W) (c_cost (f_par_sum rnd merge s l)).
    Proof.
      induction s as [|k a IHa b IHb]; intros l Hl HL; cbn [f_par_sum].
      - assert (G : eeq (c_cost (f_cost_sum rnd merge l)) (esum (map c_cost l)) /\
                    intE (Z.of_nat (length l) * W) (c_cost (f_cost_sum rnd merge l))).
        { destruct l as [|x l]; cbn [f_cost_sum cost_default c_cost map esum length].
          - split; [reflexivity|]. exists 0. split; [lia|reflexivity].
          - inversion Hl; subst. destruct (f_fold_int l W x) as [G1 G2]; auto; [cbn [length] in HL; nia|].
            split; [exact G1|]. eapply intE_mono; [|exact G2]. nia. }
        destruct G as [G1 G2]. cbn [f_cost_add c_cost].
        destruct (fadd_int rnd L rnd_int 0 (Z.of_nat (length l) * W) (Fin 0) (c_cost (f_cost_sum rnd merge l)))
          as [E1 E2]; [exists 0; split; [lia|reflexivity]|exact G2|lia|].
        split; [|exact E2]. change (c_cost (f_cost_sum rnd merge [])) with (Fin 0). rewrite E1, G1. apply eadd_0_l.
      - assert (El := firstn_skipn k l).
        assert (Ha : Forall whole (firstn k l) /\ Forall whole (skipn k l)).
        { rewrite <- El in Hl. apply Forall_app in Hl. exact Hl. }
        assert (Elen : Z.of_nat (length l) = Z.of_nat (length (firstn k l)) + Z.of_nat (length (skipn k l))).
        { rewrite <- El at 1. rewrite app_length. lia. }
        destruct Ha as [Ha Hb].
        destruct (IHa _ Ha) as [A1 A2]; [nia|]. destruct (IHb _ Hb) as [B1 B2]; [nia|].
        cbn [f_cost_add c_cost].
        destruct (fadd_int rnd L rnd_int _ _ _ _ A2 B2) as [E1 E2]; [nia|].
        split.
        + rewrite E1, A1, B1. rewrite <- El at 3. rewrite map_app. symmetry. apply esum_app.
        + eapply intE_mono; [|exact E2]. nia.
    Qed.
  End Sums.

  (** Movement of feasible configurations. *)
  Definition capacity_cost (bs bounds : list Z) : Z := fold_right Z.add 0 (map (fun e => fst e * snd e) (combine bs bounds)).

  Lemma products_int bs : forall bounds x y inverted, Forall (fun b => 0 <= b) bs ->
    feasible_config bounds x -> feasible_config bounds y -> capacity_cost bs bounds <= L ->
    exists ks, Forall2 (fun q k => 0 <= k /\ (q == inject_Z k)%Q) (f_products rnd (map inject_Z bs) x y inverted) ks /\
      0 <= fold_right Z.add 0%Z ks <= capacity_cost bs bounds.
  Proof.
    induction bs as [|b bs IH]; intros bounds x y inverted Hb Hx Hy HL.
    - exists []. destruct x, y; cbn; split; try constructor; lia.
    - inversion Hb as [|? ? Hb1 Hb2]; subst.
      inversion Hx as [|m j bounds' x' Hj Hx']; subst; inversion Hy as [|m' i b' y' Hi Hy']; subst.
      + exists []. cbn. split; [constructor|lia].
      + unfold capacity_cost in HL |- *. cbn [combine map fold_right fst snd] in HL |- *.
        fold (capacity_cost bs bounds') in HL |- *.
        set (v := if inverted then Z.max 0 (i - j) else Z.max 0 (j - i)).
        assert (Hv : 0 <= v <= m) by (unfold v; destruct inverted; lia).
        assert (Ev : (scalar_movement inject_Z j i inverted == inject_Z v)%Q).
        { unfold scalar_movement, v. destruct inverted; unfold Qminus; rewrite <- inject_Z_opp, <- inject_Z_plus, qpos_inject;
            unfold zpos.
          - replace (i + - j) with (i - j) by lia. reflexivity.
          - replace (j + - i) with (j - i) by lia. reflexivity. }
        assert (Hbv : 0 <= b * v <= b * m) by nia.
        assert (Hc : 0 <= capacity_cost bs bounds').
        { clear - Hb2 Hx'. unfold capacity_cost. revert bounds' x' Hx'. induction Hb2 as [|b bs Hb _ IH]; intros bounds x Hx; cbn; [lia|].
          inversion Hx as [|m j bounds' x' Hj Hx']; subst; cbn; [lia|]. specialize (IH _ _ Hx'). nia. }
        destruct (IH bounds' x' y' inverted Hb2 Hx' Hy') as (ks & H1 & H2); [lia|].
        exists (b * v :: ks). cbn [f_products]. split.
        * constructor; [|exact H1]. split; [lia|]. apply rnd_int; [lia|]. rewrite Ev, inject_Z_mult. reflexivity.
        * cbn [fold_right]. lia.
  Qed.

  Lemma fold_int qs ks : Forall2 (fun q k => 0 <= k /\ (q == inject_Z k)%Q) qs ks ->
    forall acc a, 0 <= a -> (acc == inject_Z a)%Q -> a + fold_right Z.add 0%Z ks <= L ->
    (fold_left (fun acc y => rnd (acc + y)) qs acc == inject_Z (a + fold_right Z.add 0%Z ks))%Q /\
    (inject_Z (a + fold_right Z.add 0%Z ks) == acc + Qsum qs)%Q.
  Proof.
    induction 1 as [|q k qs ks [Hk E] Hr IH]; intros acc a Ha Ea HL; cbn [fold_left fold_right Qsum] in *.
    - rewrite Z.add_0_r, Ea. split; [reflexivity|ring].
    - assert (P : 0 <= fold_right Z.add 0%Z ks).
      { clear - Hr. induction Hr as [|? ? ? ? [? _] _ IH]; cbn; lia. }
      assert (G : (rnd (acc + q) == inject_Z (a + k))%Q).
      { apply rnd_int; [lia|]. rewrite inject_Z_plus, Ea, E. reflexivity. }
      destruct (IH (rnd (acc + q)) (a + k)) as [G1 G2]; [lia|exact G|lia|].
      replace (a + (k + fold_right Z.add 0%Z ks)) with (a + k + fold_right Z.add 0%Z ks) by lia. split; [exact G1|].
      rewrite G2, G, inject_Z_plus, Ea, E. ring.
  Qed.

  Lemma products_exact bs : forall bounds x y inverted, Forall (fun b => 0 <= b) bs ->
    feasible_config bounds x -> feasible_config bounds y -> capacity_cost bs bounds <= L ->
    (Qsum (f_products rnd (map inject_Z bs) x y inverted) == scaled_movement inject_Z (map inject_Z bs) x y inverted)%Q.
  Proof.
    induction bs as [|b bs IH]; intros bounds x y inverted Hb Hx Hy HL.
    - destruct x, y; reflexivity.
    - inversion Hb as [|? ? Hb1 Hb2]; subst.
      inversion Hx as [|m j bounds' x' Hj Hx']; subst; inversion Hy as [|m' i b' y' Hi Hy']; subst; [reflexivity|].
      unfold capacity_cost in HL. cbn [combine map fold_right fst snd] in HL. fold (capacity_cost bs bounds') in HL.
      assert (Hc : 0 <= capacity_cost bs bounds').
      { clear - Hb2 Hx'. unfold capacity_cost. revert bounds' x' Hx'. induction Hb2 as [|b bs Hb _ IH]; intros bounds x Hx; cbn; [lia|].
        inversion Hx as [|m j bounds' x' Hj Hx']; subst; cbn; [lia|]. specialize (IH _ _ Hx'). nia. }
      cbn [map f_products Qsum scaled_movement]. rewrite (IH bounds' x' y' inverted) by (auto; nia).
      set (v := if inverted then Z.max 0 (i - j) else Z.max 0 (j - i)).
      assert (Hv : 0 <= v <= m) by (unfold v; destruct inverted; lia).
      assert (Ev : (scalar_movement inject_Z j i inverted == inject_Z v)%Q).
      { unfold scalar_movement, v. destruct inverted; unfold Qminus; rewrite <- inject_Z_opp, <- inject_Z_plus, qpos_inject;
          unfold zpos.
        - replace (i + - j) with (i - j) by lia. reflexivity.
        - replace (j + - i) with (j - i) by lia. reflexivity. }
      rewrite (rnd_int _ (b * v)); [rewrite Ev, inject_Z_mult; reflexivity|nia|rewrite Ev, inject_Z_mult; reflexivity].
  Qed.

  Lemma movement_int bs bounds x y inverted a : Forall (fun b => 0 <= b) bs -> 0 <= a ->
    feasible_config bounds x -> feasible_config bounds y -> capacity_cost bs bounds <= L -> a * capacity_cost bs bounds <= L ->
    (rnd (inject_Z a * f_scaled_movement rnd (map inject_Z bs) x y inverted) ==
     inject_Z a * scaled_movement inject_Z (map inject_Z bs) x y inverted)%Q /\
    intE (a * capacity_cost bs bounds) (Fin (rnd (inject_Z a * f_scaled_movement rnd (map inject_Z bs) x y inverted))).
  Proof.
    intros Hb Ha Hx Hy HL HaL.
    destruct (products_int bs bounds x y inverted Hb Hx Hy HL) as (ks & H1 & H2).
    destruct (fold_int _ _ H1 0%Q 0) as [G1 G2]; [lia|reflexivity|lia|]. rewrite Z.add_0_l in *.
    rewrite Qplus_0_l, (products_exact bs bounds x y inverted Hb Hx Hy HL) in G2.
    unfold f_scaled_movement. set (m := fold_left (fun acc y => rnd (acc + y)) (f_products rnd (map inject_Z bs) x y inverted) 0%Q) in *.
    assert (G : (rnd (inject_Z a * m) == inject_Z (a * fold_right Z.add 0%Z ks))%Q).
    { apply rnd_int; [nia|]. rewrite G1, inject_Z_mult. reflexivity. }
    split; [rewrite G, inject_Z_mult, G2; reflexivity|]. exists (a * fold_right Z.add 0%Z ks). split; [nia|exact G].
  Qed.
End Exact.

Lemma f_objective_int {C D} (merge : C -> C -> C) (outside : D) (rnd : Q -> Q) (F : Q -> Prop) (u small : Q) (L : Z) :
  rounds rnd F u small -> (forall k, 0 <= k <= L -> F (inject_Z k)) ->
  forall (s : split) (p : ssco C D) (xs : list (list Z)) (inverted : bool) (a B : Z) (bs : list Z),
  s_d p = Z.of_nat (length (s_bounds p)) -> Forall (fun m => 0 <= m) (s_bounds p) ->
  s_switching p = map inject_Z bs -> Forall (fun b => 0 <= b) bs -> 0 <= a -> 0 <= B ->
  feasible_schedule (s_tend p) (s_bounds p) xs ->
  (forall t x, 1 <= t <= s_tend p -> feasible_config (s_bounds p) x ->
     match c_cost (s_hit p t x) with Fin q => exists c, 0 <= c <= B /\ (q == inject_Z c)%Q | Inf => True end) ->
  let S := fold_right Z.add 0 (map (fun e => fst e * snd e) (combine bs (s_bounds p))) in
  S <= L -> a * S <= L -> s_tend p * (B + a * S) <= L ->
  eeq (c_cost (f_objective_with_default rnd merge outside s p xs (zero_config (s_d p)) (inject_Z a) inverted (s_tend p)))
      (schedule_cost p (inject_Z a) inverted xs).
Proof.
  intros HR HF s p xs inverted a B bs Hd Hm Hsw Hbs Ha HB [Hl Hf] Hh S HS HaS HT.
  assert (S0 : 0 <= S).
  { unfold S. clear - Hbs Hm. revert Hm. generalize (s_bounds p). induction Hbs as [|b bs Hb _ IH]; intros [|m ms] Hm; cbn; try lia.
    inversion Hm; subst. specialize (IH ms H2). nia. }
  assert (rnd_int : forall q k, 0 <= k <= L -> (q == inject_Z k)%Q -> (rnd q == inject_Z k)%Q).
  { intros q k Hk E. rewrite (rnd_compat rnd F u small HR q (inject_Z k)); [apply (r_keeps _ _ _ _ HR); auto| |exact E].
    rewrite E. change 0%Q with (inject_Z 0). rewrite <- Zle_Qle. lia. }
  assert (HTn : 0 <= s_tend p) by lia.
  set (zero := zero_config (s_d p)).
  assert (Hzero : feasible_config (s_bounds p) zero).
  { unfold zero, zero_config. rewrite Hd, Nat2Z.id. clear - Hm. induction Hm; cbn; constructor; auto. lia. }
  assert (Hget : forall t, feasible_config (s_bounds p) (get_or xs zero t)).
  { intros t. unfold get_or. destruct (access xs t) as [x|] eqn:E; [|exact Hzero].
    rewrite Forall_forall in Hf. apply Hf. unfold access in E. destruct ((1 <=? t) && _); [|discriminate]. eapply nth_error_In; eauto. }
  set (st := fun t => step_cost (ssco_problem outside p) (inject_Z a) inverted t (get_or xs zero (t - 1)) (get_or xs zero t)).
  set (fst' := fun t => f_step_cost rnd outside p (inject_Z a) inverted t (get_or xs zero (t - 1)) (get_or xs zero t)).
  assert (Hstep : forall t, 1 <= t <= s_tend p -> eeq (c_cost (fst' t)) (c_cost (st t)) /\ intE (B + a * S) (c_cost (fst' t))).
  { intros t Ht. unfold st, fst', step_cost, f_step_cost. cbn [p_tend p_hit p_move ssco_problem c_cost].
    rewrite (proj2 (Z.ltb_ge _ _)) by lia. unfold ssco_movement. rewrite Hsw.
    destruct (movement_int rnd L rnd_int bs (s_bounds p) (get_or xs zero t) (get_or xs zero (t - 1)) inverted a Hbs Ha
                (Hget t) (Hget (t - 1)) HS HaS) as [M1 M2].
    assert (Hhit : intE B (c_cost (ssco_hit_cost outside p t (get_or xs zero t)))).
    { unfold ssco_hit_cost. destruct (within _ _); [|exact I]. apply (Hh t _ Ht (Hget t)). }
    destruct (fadd_int rnd L rnd_int _ _ _ _ Hhit M2) as [E1 E2]; [fold S; unfold capacity_cost; fold S; nia|].
    split; [|exact E2]. rewrite E1. apply eadd_proper; [reflexivity|exact M1]. }
  unfold f_objective_with_default. fold zero. fold fst'.
  assert (Hall : Forall (fun c : cost C D => intE (B + a * S) (c_cost c)) (map fst' (zrange 1 (s_tend p)))).
  { apply Forall_map, Forall_forall. intros t Ht. apply zrange_In in Ht. apply Hstep. exact Ht. }
  destruct (f_par_sum_int rnd L rnd_int merge (B + a * S) ltac:(nia) s _ Hall) as [G _].
  { rewrite map_length, zrange_length. rewrite Z2Nat.id by lia. nia. }
  rewrite G.
  transitivity (esum (map c_cost (map st (zrange 1 (s_tend p))))).
  { rewrite !map_map. assert (Hin : forall t, In t (zrange 1 (s_tend p)) -> 1 <= t <= s_tend p) by (intros t; apply zrange_In).
    revert Hin. generalize (zrange 1 (s_tend p)). intros ts Hin. induction ts as [|t ts IH]; cbn [map esum]; [reflexivity|].
    apply eadd_proper; [apply Hstep, Hin; left; reflexivity|apply IH; intros; apply Hin; right; assumption]. }
  rewrite <- (par_sum_cost merge Leaf). unfold schedule_cost.
  rewrite <- (objective_exact_spec merge outside Leaf) by auto. reflexivity.
Qed.

(** ** Integral optima of the multi-dimensional search are found exactly *)
Definition whole (e : ext) : Prop := match e with Fin q => exists k, (q == inject_Z k)%Q | Inf => True end.

Lemma whole_add a b : whole a -> whole b -> whole (eadd a b).
Proof.
  destruct a as [x|], b as [y|]; cbn; auto. intros (k & E) (l & E'). exists (k + l). rewrite E, E', inject_Z_plus. reflexivity.
Qed.

Lemma power_up_whole bs : forall x y, exists k, (power_up (map inject_Z bs) x y == inject_Z k)%Q.
Proof.
  induction bs as [|b bs IH]; intros [|i x] [|j y]; try (exists 0; reflexivity).
  destruct (IH x y) as (k & E). exists (b * Z.max 0 (j - i) + k). cbn [map power_up].
  rewrite E, inject_Z_plus, inject_Z_mult. reflexivity.
Qed.

Lemma schedule_cost_whole {C D} (p : ssco C D) bs a xs : s_switching p = map inject_Z bs ->
  (forall t x, inside (s_bounds p) x = true -> whole (c_cost (s_hit p t x))) -> whole (schedule_cost p (inject_Z a) false xs).
Proof.
  intros Hs Hh. unfold schedule_cost. rewrite Hs. generalize 1 (zero_config (s_d p)).
  induction xs as [|x xs IH]; intros t prev; cbn [total_cost]; [exists 0; reflexivity|].
  apply whole_add; [|apply IH]. apply whole_add.
  - unfold restricted. destruct (inside _ _) eqn:Hin; [apply Hh, Hin|exact I].
  - destruct (power_up_whole bs prev x) as (k & E). exists (a * k). unfold switching. rewrite E, inject_Z_mult. reflexivity.
Qed.

Lemma near_integers (u : Q) (n k c : Z) (e : Q) : (0 <= u)%Q -> (u < 1)%Q -> 0 <= n -> 0 <= k ->
  (Qpower (1 - u) n * inject_Z k <= e)%Q -> (e <= Qpower (1 + u) n * inject_Z c)%Q ->
  (2 * inject_Z n * u * (inject_Z c + 1) < 1)%Q -> 0 <= c -> k <= c.
Proof.
  intros H0 H1 Hn Hk L1 L2 L3 Hc. destruct (Z_le_gt_dec k c) as [|G]; auto. exfalso.
  destruct (relative_error u n H0 H1 Hn) as [R1 R2].
  assert (Pn : (0 <= inject_Z n)%Q) by (change 0%Q with (inject_Z 0); rewrite <- Zle_Qle; exact Hn).
  assert (Pc : (0 <= inject_Z c)%Q) by (change 0%Q with (inject_Z 0); rewrite <- Zle_Qle; exact Hc).
  assert (Gk : (inject_Z c + 1 <= inject_Z k)%Q).
  { change 1%Q with (inject_Z 1). rewrite <- inject_Z_plus, <- Zle_Qle. lia. }
  set (w := (inject_Z n * u)%Q) in *. set (x := inject_Z c) in *. set (y := inject_Z k) in *.
  set (P := Qpower (1 + u) n) in *. set (M := Qpower (1 - u) n) in *.
  assert (Pw : (0 <= w)%Q) by (apply Qmult_le_0_compat; auto).
  assert (Hw : (2 * (w * (x + 1)) < 1)%Q).
  { assert (E : (2 * (w * (x + 1)) == 2 * inject_Z n * u * (x + 1))%Q) by (unfold w; ring). rewrite E. exact L3. }
  assert (Pwx : (0 <= w * x)%Q) by (apply Qmult_le_0_compat; auto).
  assert (Hw1 : (w < 1)%Q) by lra.
  assert (A1 : ((1 - w) * y <= e)%Q).
  { assert (((1 - w) * y <= M * y)%Q) by (apply Qmult_le_compat_r; lra). lra. }
  assert (A2 : (e * (1 - w) <= x)%Q).
  { assert ((e * (1 - w) <= P * x * (1 - w))%Q) by (apply Qmult_le_compat_r; lra).
    assert ((P * (1 - w) * x <= 1 * x)%Q) by (apply Qmult_le_compat_r; lra). lra. }
  assert (A3 : ((1 - w) * (x + 1) * (1 - w) <= x)%Q).
  { assert (((1 - w) * (x + 1) <= (1 - w) * y)%Q) by (rewrite !(Qmult_comm (1 - w)); apply Qmult_le_compat_r; lra).
    assert (((1 - w) * (x + 1) * (1 - w) <= e * (1 - w))%Q) by (apply Qmult_le_compat_r; lra). lra. }
  assert (0 <= w * w * (x + 1))%Q by (apply Qmult_le_0_compat; [apply Qmult_le_0_compat; auto|lra]).
  lra.
Qed.

Lemma whole_cost_nonneg {C D} (p : ssco C D) alpha xs : (0 <= alpha)%Q -> Forall (fun q => 0 <= q)%Q (s_switching p) ->
  (forall t x, inside (s_bounds p) x = true -> match c_cost (s_hit p t x) with Fin q => (0 <= q)%Q | Inf => True end) ->
  match schedule_cost p alpha false xs with Fin q => (0 <= q)%Q | Inf => True end.
Proof.
  intros Ha Hs Hh. unfold schedule_cost. generalize 1 (zero_config (s_d p)).
  induction xs as [|x xs IH]; intros t prev; cbn [total_cost]; [lra|].
  specialize (IH (t + 1) x).
  destruct (total_cost _ _ _ (t + 1) x xs) as [r|].
  2:{ unfold eadd. destruct (restricted _ _ _ _); exact I. }
  assert (Hf : match restricted (s_bounds p) (fun t x => c_cost (s_hit p t x)) t x with Fin q => (0 <= q)%Q | Inf => True end).
  { unfold restricted. destruct (inside _ _) eqn:Hin; [apply Hh, Hin|exact I]. }
  destruct (restricted _ _ t x) as [f|]; cbn; auto.
  assert (Hm : (0 <= switching (s_switching p) false prev x)%Q).
  { clear - Hs. unfold switching. revert prev x. induction Hs as [|b bs Hb _ IH]; intros [|i prev] [|j x]; cbn [power_up]; try lra.
    specialize (IH prev x). assert (0 <= b * inject_Z (Z.max 0 (j - i)))%Q.
    { apply Qmult_le_0_compat; auto. change 0%Q with (inject_Z 0). rewrite <- Zle_Qle. lia. } cbn [power_up] in *. lra. }
  assert (0 <= alpha * switching (s_switching p) false prev x)%Q by (apply Qmult_le_0_compat; auto). cbn [switching] in *. lra.
Qed.

Lemma f_search_nd_integral {C D} (outside : D) (rnd : Q -> Q) (F : Q -> Prop) (u small : Q)
    (sched : Z -> vertice -> split) (p : ssco C D) (inverted : bool) (a : Z) (bs : list Z) (zs : list (list Z)) (c : Z) :
  rounds rnd F u small -> representable_instance F small (inject_Z a) p -> searchable p -> 0 <= a ->
  s_switching p = map inject_Z bs ->
  (forall t x, inside (s_bounds p) x = true -> match c_cost (s_hit p t x) with Fin q => exists k, 0 <= k /\ (q == inject_Z k)%Q | Inf => True end) ->
  let n := search_roundings (s_tend p) (fold_right Z.add 0 (s_bounds p)) inverted in
  feasible_schedule (s_tend p) (s_bounds p) zs -> eeq (schedule_cost p (inject_Z a) false zs) (Fin (inject_Z c)) ->
  (2 * inject_Z n * u * (inject_Z c + 1) < 1)%Q ->
  exists path cache,
    f_optimal_graph_search rnd outside sched p None inverted (inject_Z a) None = Ok (path, cache) /\
    feasible_schedule (s_tend p) (s_bounds p) (gp_xs path) /\
    forall ys, feasible_schedule (s_tend p) (s_bounds p) ys ->
      ele (schedule_cost p (inject_Z a) false (gp_xs path)) (schedule_cost p (inject_Z a) false ys).
Proof.
  intros HR Hrep Hs Ha Hsw Hh n Hz Ez Hn.
  assert (Pa : (0 <= inject_Z a)%Q) by (change 0%Q with (inject_Z 0); rewrite <- Zle_Qle; exact Ha).
  destruct (f_optimal_graph_search_correct outside rnd F u small sched p inverted (inject_Z a) HR Hrep Hs Pa)
    as (path & cache & Hr & Hf & Hfin & Hup & Hopt). fold n in Hup, Hopt.
  exists path, cache. split; [exact Hr|]. split; [exact Hf|]. intros ys Hy.
  destruct (r_unit _ _ _ _ HR) as [u0 u1].
  assert (Hn0 : 0 <= n).
  { unfold n, search_roundings. destruct Hs as (_ & _ & _ & _ & HT & HB & _).
    assert (0 <= fold_right Z.add 0 (s_bounds p)).
    { clear - HB. induction HB; cbn; lia. }
    destruct inverted; nia. }
  assert (Hwhole : forall xs, whole (schedule_cost p (inject_Z a) false xs)).
  { intros xs. apply (schedule_cost_whole p bs); auto. intros t x Hin. specialize (Hh t x Hin). unfold whole.
    destruct (c_cost (s_hit p t x)); auto. destruct Hh as (k & _ & E). eauto. }
  assert (Hpos : forall xs, match schedule_cost p (inject_Z a) false xs with Fin q => (0 <= q)%Q | Inf => True end).
  { intros xs. apply whole_cost_nonneg; auto; [apply Hs|]. intros t x Hin. specialize (Hh t x Hin).
    destruct (c_cost (s_hit p t x)); auto. destruct Hh as (k & Hk & E). rewrite E.
    change 0%Q with (inject_Z 0). rewrite <- Zle_Qle. exact Hk. }
  assert (Wx := Hwhole (gp_xs path)). assert (Wy := Hwhole ys).
  assert (Px := Hpos (gp_xs path)). assert (Py := Hpos ys). assert (Pz := Hpos zs).
  assert (Oy := Hopt ys Hy). assert (Oz := Hopt zs Hz).
  destruct (schedule_cost p (inject_Z a) false ys) as [qy|]; [|destruct (schedule_cost p (inject_Z a) false (gp_xs path)); exact I].
  destruct (schedule_cost p (inject_Z a) false zs) as [qz|]; [cbn in Ez|contradiction].
  destruct (gp_cost path) as [e|]; [|contradiction].
  destruct (schedule_cost p (inject_Z a) false (gp_xs path)) as [qx|]; [|contradiction].
  cbn in Wx, Wy, Px, Py, Pz, Oy, Oz, Hup |- *. destruct Wx as (k & Ek), Wy as (l & El). destruct Hup as [Hlo _].
  assert (toZ : forall i, (0 <= inject_Z i)%Q -> 0 <= i) by (intros i H; rewrite Zle_Qle; exact H).
  rewrite Ek in Px, Hlo |- *. rewrite El in Py, Oy |- *. rewrite Ez in Pz, Oz. apply toZ in Px, Py, Pz.
  rewrite <- Zle_Qle.
  assert (Kc : k <= c) by (apply (near_integers u n k c e); assumption).
  destruct (Z_le_gt_dec c l); [lia|]. apply (near_integers u n k l e); auto.
  assert (0 <= inject_Z n)%Q by (change 0%Q with (inject_Z 0); rewrite <- Zle_Qle; exact Hn0).
  assert (inject_Z l + 1 <= inject_Z c + 1)%Q by (apply Qplus_le_compat; [rewrite <- Zle_Qle; lia|apply Qle_refl]).
  eapply Qle_lt_trans; [|exact Hn]. rewrite !(Qmult_comm (2 * inject_Z n * u)). apply Qmult_le_compat_r; auto.
  repeat apply Qmult_le_0_compat; auto. discriminate.
Qed.
