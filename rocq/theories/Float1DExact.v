(** Integral costs: the one-dimensional search with rounding is exact as long as sums stay below the
    limit up to which all integers are numbers of the format. *)
From Coq Require Import Lqa.
From Verif Require Import NumLemmas ObjectiveSpec ObjectiveProofs Search1DModel Search1DProofs Search1DExchange Search1DLevels Search1DTop
  GraphSearchSpec FloatModel FloatSpec FloatProofs FloatRound Float1DModel Float1DProofs Float1DTop.
From Verif Require Import ProblemModel.
Local Open Scope Z_scope.

Definition intE (w : Z) (a : ext) : Prop :=
  match a with
  | Fin q => exists k, 0 <= k <= w /\ (q == inject_Z k)%Q
  | Inf => True
  end.

Lemma intE_mono v w e : v <= w -> intE v e -> intE w e.
Proof. destruct e; cbn; auto. intros H (k & Hk & E). exists k. split; [lia|exact E]. Qed.

Section Sum.
  Variable rnd : Q -> Q.
  Variable L : Z.
  Hypothesis rnd_int : forall q k, 0 <= k <= L -> (q == inject_Z k)%Q -> (rnd q == inject_Z k)%Q.

  Lemma fadd_int v w e f : intE v e -> intE w f -> v + w <= L ->
    eeq (fadd rnd e f) (eadd e f) /\ intE (v + w) (fadd rnd e f).
  Proof.
    destruct e as [x|], f as [y|]; cbn; auto. intros (k & Hk & E) (l & Hl & E') H.
    assert (G : (rnd (x + y) == inject_Z (k + l))%Q).
    { apply rnd_int; [lia|]. rewrite inject_Z_plus, E, E'. reflexivity. }
    split; [rewrite G, inject_Z_plus, E, E'; reflexivity|]. exists (k + l). split; [lia|exact G].
  Qed.
End Sum.

Section Exact.
  Variable rnd : Q -> Q.
  Variable L : Z.
  Hypothesis rnd_int : forall q k, 0 <= k <= L -> (q == inject_Z k)%Q -> (rnd q == inject_Z k)%Q.
  Variable hit : Z -> Z -> ext.
  Variables a b B m : Z.
  Variable inverted : bool.
  Variable x_start : Z.
  Hypothesis a_nonneg : 0 <= a.
  Hypothesis b_nonneg : 0 <= b.
  Hypothesis m_nonneg : 0 <= m.
  Hypothesis start_in : 0 <= x_start <= m.
  Variable T : Z.
  Hypothesis T_nonneg : 0 <= T.
  Hypothesis B_nonneg : 0 <= B.
  Hypothesis hit_int : forall t j, 1 <= t <= T -> intE B (hit t j).

  Local Notation beta := (inject_Z b).
  Local Notation alpha := (inject_Z a).
  Let W := B + a * b * m.
  Hypothesis below : b * m <= L.
  Hypothesis below_T : T * W <= L.

  Lemma W_nonneg : 0 <= W.
  Proof. unfold W. assert (0 <= a * b) by (apply Z.mul_nonneg_nonneg; auto). assert (0 <= a * b * m) by (apply Z.mul_nonneg_nonneg; auto). lia. Qed.

  Lemma build_int t i j : 1 <= t <= T -> 0 <= i <= m -> 0 <= j <= m ->
    eeq (f_build_cost rnd hit beta alpha inverted t i j) (build_cost hit beta alpha inverted t i j) /\
    intE W (f_build_cost rnd hit beta alpha inverted t i j).
  Proof.
    intros Ht Hi Hj. assert (WL : W <= L) by (assert (G := W_nonneg); nia).
    set (v := if inverted then Z.max 0 (i - j) else Z.max 0 (j - i)).
    assert (Hv : 0 <= v <= m) by (unfold v; destruct inverted; lia).
    assert (Ev : (scalar_movement inject_Z j i inverted == inject_Z v)%Q).
    { unfold scalar_movement, v. destruct inverted; unfold Qminus; rewrite <- inject_Z_opp, <- inject_Z_plus, qpos_inject;
        unfold zpos.
      - replace (i + - j) with (i - j) by lia. reflexivity.
      - replace (j + - i) with (j - i) by lia. reflexivity. }
    assert (Hbv : 0 <= b * v <= b * m) by nia.
    assert (E1 : (rnd (beta * scalar_movement inject_Z j i inverted) == inject_Z (b * v))%Q).
    { apply rnd_int; [lia|]. rewrite Ev, inject_Z_mult. reflexivity. }
    assert (E2 : (f_scaled_movement rnd [beta] [j] [i] inverted == inject_Z (b * v))%Q).
    { cbn [f_scaled_movement f_products fold_left]. unfold f_scaled_movement. cbn [f_products fold_left].
      apply rnd_int; [lia|]. rewrite E1. ring. }
    assert (Habv : 0 <= a * (b * v) <= a * b * m) by nia.
    assert (E3 : (rnd (alpha * f_scaled_movement rnd [beta] [j] [i] inverted) == inject_Z (a * (b * v)))%Q).
    { apply rnd_int; [unfold W in WL; lia|]. rewrite E2, inject_Z_mult. reflexivity. }
    unfold f_build_cost, build_cost.
    destruct (fadd_int rnd L rnd_int B (a * b * m) (hit t j) (Fin (rnd (alpha * f_scaled_movement rnd [beta] [j] [i] inverted))))
      as [G1 G2]; [apply hit_int; exact Ht|cbn; eauto|exact WL|].
    split; [|exact G2]. rewrite G1. apply eadd_proper; [reflexivity|]. cbn [eeq]. rewrite E3.
    cbn. rewrite Ev, !inject_Z_mult. ring.
  Qed.

  Definition alikeI (ps qs : paths) : Prop :=
    Forall2 (fun x y => fst x = fst y /\ like (snd x) (snd y) /\ intE (fst (fst x) * W) (pa_cost (snd x))) ps qs.

  Lemma lookup_int ps qs t j : alikeI ps qs ->
    olike (fun p q => like p q /\ intE (t * W) (pa_cost p))
      (from_option (lookup ps (t, j))) (from_option (lookup qs (t, j))).
  Proof.
    induction 1 as [|[k p] [k' q] ps qs (E & HL & HI) _ IH]; [exact I|]. cbn in E, HL, HI. subst k'. cbn [lookup fst snd].
    destruct ((fst k =? t) && (snd k =? j)) eqn:G; [|exact IH].
    apply Bool.andb_true_iff in G as [G _]. cbn. split; [exact HL|]. replace t with (fst k) by lia. exact HI.
  Qed.

  Lemma pick_source_int t to ps qs : alikeI ps qs -> 1 <= t <= T -> 0 <= to <= m ->
    forall from s e f, Forall (fun z => 0 <= z <= m) from -> eeq e f -> intE (t * W) e ->
    olike (fun x y => fst x = fst y /\ eeq (snd x) (snd y) /\ intE (t * W) (snd x))
      (f_pick_source rnd hit beta alpha inverted ps t to from (s, e))
      (pick_source hit beta alpha inverted qs t to from (s, f)).
  Proof.
    intros HA Ht Hto. induction from as [|x from IH]; intros s e f Hfr E HI; cbn [f_pick_source pick_source]; [cbn; auto|].
    inversion Hfr as [|? ? Hx Hfr']; subst.
    eapply obind_olike; [apply lookup_int; exact HA|]. intros p q [[_ L1] L2]. cbv zeta. cbn [snd].
    destruct (build_int t x to Ht Hx Hto) as [G1 G2].
    assert (HW := W_nonneg).
    destruct (fadd_int rnd L rnd_int ((t - 1) * W) W (pa_cost p) (f_build_cost rnd hit beta alpha inverted t x to) L2 G2) as [G3 G4];
      [nia|].
    assert (G : eeq (fadd rnd (pa_cost p) (f_build_cost rnd hit beta alpha inverted t x to))
                    (eadd (pa_cost q) (build_cost hit beta alpha inverted t x to))).
    { rewrite G3. apply eadd_proper; assumption. }
    rewrite (eltb_eeq _ _ _ _ G E). destruct (eltb _ _); apply IH; auto.
    eapply intE_mono; [|exact G4]. lia.
  Qed.

  Lemma subpaths_int t from : 1 <= t <= T -> Forall (fun z => 0 <= z <= m) from ->
    forall rows ps qs, alikeI ps qs -> Forall (fun z => 0 <= z <= m) rows ->
    olike alikeI (f_find_subpaths rnd hit beta alpha inverted ps t from rows)
      (find_subpaths hit beta alpha inverted qs t from rows).
  Proof.
    intros Ht Hfr. induction rows as [|j rows IH]; intros ps qs HA Hro; cbn [f_find_subpaths find_subpaths]; [exact HA|].
    inversion Hro as [|? ? Hj Hro']; subst.
    eapply (obind_olike alikeI); [|intros x y Hxy; apply IH; assumption].
    unfold f_find_shortest_subpath, find_shortest_subpath. destruct from as [|s0 from]; [exact I|].
    eapply obind_olike; [apply pick_source_int; auto; exact I|]. intros [x e] [y f] (E1 & E2 & E3). cbn in E1, E2, E3. subst y.
    cbn [fst snd]. unfold update_paths. eapply obind_olike; [apply lookup_int; exact HA|].
    intros p q [[L1 _] _]. cbn. constructor; [|exact HA]. cbn. split; [reflexivity|]. split; [|exact E3].
    split; cbn; [rewrite L1; reflexivity|exact E2].
  Qed.

  Lemma layers_int sel : (forall t rows, sel t = Ok rows -> Forall (fun z => 0 <= z <= m) rows) ->
    forall ts ps qs rows, alikeI ps qs -> Forall (fun z => 0 <= z <= m) rows -> Forall (fun t => 1 <= t <= T) ts ->
    olike (fun x y => alikeI (fst x) (fst y) /\ snd x = snd y)
      (f_find_layers rnd hit beta alpha inverted sel ps rows ts)
      (find_layers hit beta alpha inverted sel qs rows ts).
  Proof.
    intros Hsel. induction ts as [|t ts IH]; intros ps qs rows HA Hro Hts; cbn [f_find_layers find_layers]; [cbn; auto|].
    inversion Hts as [|? ? Ht Hts']; subst.
    destruct (sel t) as [rows'| |] eqn:E; cbn [obind]; [|reflexivity|exact I]. apply Hsel in E.
    eapply obind_olike; [apply subpaths_int; auto|]. intros x y Hxy. apply IH; auto.
  Qed.

  Lemma alikeI_alike ps qs : alikeI ps qs -> alike ps qs.
  Proof. unfold alikeI, alike. induction 1 as [|x y ps qs (H1 & H2 & _) _ IH]; constructor; auto. Qed.

  Lemma schedule_int sel : (forall t rows, sel t = Ok rows -> Forall (fun z => 0 <= z <= m) rows) ->
    olike like (f_find_schedule rnd hit beta alpha inverted x_start T sel)
      (find_schedule hit beta alpha inverted x_start T sel).
  Proof.
    intros Hsel. unfold f_find_schedule, find_schedule. eapply obind_olike.
    - apply layers_int; auto.
      + constructor; [|constructor]. cbn. split; [reflexivity|]. split; [split; reflexivity|].
        exists 0. split; [lia|reflexivity].
      + apply Forall_forall. intros t Ht. apply zrange_In in Ht. lia.
    - intros [x r] [y r'] [H1 H2]. cbn in *. subst r'. apply final_id; [apply alikeI_alike; exact H1|]. split; reflexivity.
  Qed.

  Lemma search_pow2_int :
    olike like (f_search_pow2 rnd hit beta alpha inverted x_start T m)
      (search_pow2 hit beta alpha inverted x_start T m).
  Proof.
    unfold f_search_pow2, search_pow2. eapply obind_olike.
    { apply schedule_int. intros t rows E. unfold select_initial_rows in E. injection E as <-.
      apply Forall_forall. intros z Hz. apply quarter_bound; auto. }
    generalize (k_init m). intros k. induction k as [|k IH]; intros p q HL; cbn [f_refine refine]; [exact HL|].
    eapply (obind_olike like); [|intros x y Hxy; apply IH; exact Hxy].
    destruct HL as [-> _]. apply schedule_int. intros t rows E. unfold select_next_rows in E.
    apply obind_Ok in E as (x & _ & E). change (Ok (window m (Z.of_nat k) x) = Ok rows) in E. injection E as <-.
    apply Forall_forall. intros z Hz. apply In_window in Hz. lia.
  Qed.
End Exact.

Section Top.
  Context {C D : Type}.
  Variable outside : D.

  Lemma f_search_1d_integral (rnd : Q -> Q) (F : Q -> Prop) (u small : Q) (L : Z) :
    rounds rnd F u small -> (forall k, 0 <= k <= L -> F (inject_Z k)) ->
    forall (p : ssco C D) (x_start : Z) (inverted : bool) (a b m B : Z),
    s_d p = 1 -> s_bounds p = [m] -> s_switching p = [inject_Z b] -> 0 <= s_tend p ->
    (exists k, 0 <= k /\ m = 2 ^ k) -> 0 <= x_start <= m -> 0 <= a -> 0 <= b -> 0 <= B ->
    (forall t j, 1 <= t <= s_tend p -> 0 <= j <= m ->
       match c_cost (s_hit p t [j]) with Fin q => exists c, 0 <= c <= B /\ (q == inject_Z c)%Q | Inf => True end) ->
    b * m <= L -> s_tend p * (B + a * b * m) <= L ->
    (forall t, 1 <= t <= s_tend p -> convex_on m (fun j => c_cost (s_hit p t [j]))) ->
    (forall t, 1 <= t <= s_tend p -> is_fin (c_cost (s_hit p t [m]))) ->
    let J := total_cost (fun t x => c_cost (s_hit p t x)) (switching [inject_Z b] inverted) (inject_Z a) 1 [x_start] in
    exists r,
      f_optimal_graph_search_1d rnd outside p x_start inverted (inject_Z a) None = Ok r /\
      is_fin (pa_cost r) /\
      let xs := map (fun j => [j]) (pa_xs r) in
      feasible_schedule (s_tend p) [m] xs /\
      eeq (pa_cost r) (J xs) /\
      forall ys, feasible_schedule (s_tend p) [m] ys -> ele (pa_cost r) (J ys).
  Proof.
    intros HR HF p x_start inverted a b m B Hd Hb Hsw HT Hm Hx Ha Hb0 HB Hint Hbm HTL Hconv Hfin J.
    assert (Pa : (0 <= inject_Z a)%Q) by (change 0%Q with (inject_Z 0); rewrite <- Zle_Qle; exact Ha).
    assert (Pb : (0 <= inject_Z b)%Q) by (change 0%Q with (inject_Z 0); rewrite <- Zle_Qle; exact Hb0).
    destruct (search_1d_pow2 outside p x_start inverted (inject_Z a) (inject_Z b) m Hd Hb Hsw HT Hm Pa Pb Hconv Hfin)
      as (r & Hr & Hrf & Hfeas & Hc & Hopt).
    assert (Hpow : is_pow_of_2 m = true).
    { destruct Hm as (k & Hk & Em). assert (0 < m) by (rewrite Em; apply Z.pow_pos_nonneg; lia).
      unfold is_pow_of_2. replace (m =? 0) with false by lia. cbn. apply Z.eqb_eq. rewrite Em.
      replace (2 ^ k - 1) with (Z.ones k) by (rewrite Z.ones_equiv; lia).
      rewrite Z.land_ones by lia. apply Z.mod_same. lia. }
    assert (m0 : 0 <= m) by (destruct Hm as (k & Hk & ->); apply Z.pow_nonneg; lia).
    assert (G : olike like (f_optimal_graph_search_1d rnd outside p x_start inverted (inject_Z a) None)
                  (optimal_graph_search_1d outside p x_start inverted (inject_Z a) None)).
    { unfold f_optimal_graph_search_1d, optimal_graph_search_1d. rewrite Hd, Z.eqb_refl. cbn [negb]. rewrite Hb, Hsw, Hpow.
      apply (search_pow2_int rnd L) with (B := B); auto.
      - intros q k Hk E. rewrite (rnd_compat rnd F u small HR q (inject_Z k)); [apply (r_keeps _ _ _ _ HR); auto| |exact E].
        rewrite E. change 0%Q with (inject_Z 0). rewrite <- Zle_Qle. lia.
      - intros t j Ht. unfold ssco_hit_cost. rewrite Hb. destruct (within [m] [j]) eqn:E; [|exact I].
        cbn in E. apply (Hint t j Ht). lia. }
    rewrite Hr in G. destruct (f_optimal_graph_search_1d rnd outside p x_start inverted (inject_Z a) None) as [r'| |]; cbn in G;
      try contradiction. destruct G as [G1 G2].
    exists r'. split; [reflexivity|]. rewrite G1. split; [eapply eeq_fin; [exact G2|exact Hrf]|].
    split; [exact Hfeas|]. split; [rewrite G2; exact Hc|]. intros ys Hy. rewrite G2. apply Hopt; exact Hy.
  Qed.
End Top.

(** All integers up to 2^53 are numbers of binary64. *)
Lemma binary64_integers k : 0 <= k <= 2 ^ 53 -> binary64_number (inject_Z k).
Proof. intros Hk. exists k, 0. split; [exact Hk|]. split; [lia|]. change (Qpower 2 0) with 1%Q. ring. Qed.
