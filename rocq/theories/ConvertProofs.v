(** Proofs about rounding, relaxation, discretisation and raw encodings. *)
From Verif Require Import NumLemmas CostProofs ConvertSpec.
Local Open Scope Z_scope.

Lemma cf_new_get {X C D} (f : single_fn X C D) t : 1 <= t -> cf_get (cf_new 1 f) t = Ok (1, f).
Proof.
  intros H. assert (1 <=? t = true) as E by lia. unfold cf_get, cf_new.
  cbn [bt_insert filter fst]. rewrite E. reflexivity.
Qed.

Lemma certain_call_certain {X C D} (f : Z -> X -> outcome (cost C D)) t x : 1 <= t ->
  call_certain (cf_new 1 (certain f)) t x = f t x.
Proof.
  intros H. unfold call_certain. rewrite cf_new_get by auto. simpl.
  unfold single_certain, single_predictive, certain. rewrite (proj2 (Z.ltb_ge t 1)) by lia.
  destruct (f t x); simpl; auto. rewrite andb_false_r. reflexivity.
Qed.

Lemma certain_call_mean {X C D} (vmerge : C -> C -> outcome C) (f : Z -> X -> outcome (cost C D)) t x : 1 <= t ->
  outcome_rel cost_eq (call_mean vmerge (cf_new 1 (certain f)) t x) (f t x).
Proof.
  intros H. unfold call_mean. rewrite cf_new_get by auto. simpl.
  unfold single_mean, single_predictive, certain. rewrite (proj2 (Z.ltb_ge t 1)) by lia.
  destruct (f t x); simpl; auto. rewrite andb_false_r. apply cost_mean_single.
Qed.

Lemma Qfloor_inject z : Qfloor (inject_Z z) = z.
Proof. unfold Qfloor, inject_Z. simpl. apply Z.div_1_r. Qed.
Lemma Qceiling_inject z : Qceiling (inject_Z z) = z.
Proof. unfold Qceiling. rewrite <- inject_Z_opp, Qfloor_inject. lia. Qed.
Lemma Qfloor_unique x m : (inject_Z m <= x)%Q -> (x < inject_Z (m + 1))%Q -> Qfloor x = m.
Proof.
  intros H1 H2. pose proof (Qfloor_le x) as H3. pose proof (Qlt_floor x) as H4.
  assert (inject_Z m < inject_Z (Qfloor x + 1))%Q as H5 by lra.
  assert (inject_Z (Qfloor x) < inject_Z (m + 1))%Q as H6 by lra.
  rewrite <- Zlt_Qlt in H5, H6. lia.
Qed.
Lemma Qceiling_unique x m : (inject_Z m < x)%Q -> (x <= inject_Z (m + 1))%Q -> Qceiling x = m + 1.
Proof.
  intros H1 H2. unfold Qceiling. rewrite (Qfloor_unique (- x) (- (m + 1))); [lia| |].
  - rewrite inject_Z_opp. lra.
  - replace (- (m + 1) + 1) with (- m) by lia. rewrite inject_Z_opp. lra.
Qed.

(** ** Relaxation *)
Section Relax.
  Context {C D : Type}.
  Variable vmerge : C -> C -> outcome C.
  Variable cf : cost_fn (list Z) C D.
  Variable t : Z.
  Hypothesis Ht : 1 <= t.

  Lemma into_f_at_integer z x : (x == inject_Z z)%Q ->
    call_certain (cf_into_f vmerge cf) t [x] = call_certain cf t [z].
  Proof.
    intros Hx. unfold cf_into_f. rewrite certain_call_certain by auto.
    assert (Qfloor x = z) as ->.
    { apply Qfloor_unique; rewrite Hx; [lra|]. rewrite <- Zlt_Qlt. lia. }
    rewrite (proj2 (Qeq_bool_iff _ _) Hx). reflexivity.
  Qed.

  Lemma into_f_dim x : length x <> 1%nat -> call_certain (cf_into_f vmerge cf) t x = Panic.
  Proof.
    intros Hx. unfold cf_into_f. rewrite certain_call_certain by auto.
    destruct x as [|j [|j' x]]; simpl in *; auto. lia.
  Qed.

  Lemma into_f_between x m : (inject_Z m < x)%Q -> (x < inject_Z (m + 1))%Q ->
    call_certain (cf_into_f vmerge cf) t [x] =
    do lower <- call_certain cf t [m];
    do upper <- call_certain cf t [m + 1];
    do o <- vertical_reduce vmerge [c_out lower; c_out upper];
    Ok (mkCost (eadd (escale (inject_Z (m + 1) - x) (c_cost lower))
                     (escale (x - inject_Z m) (c_cost upper))) o).
  Proof.
    intros H1 H2. unfold cf_into_f. rewrite certain_call_certain by auto.
    assert (Qfloor x = m) as -> by (apply Qfloor_unique; lra).
    assert (Qceiling x = m + 1) as -> by (apply Qceiling_unique; lra).
    destruct (Qeq_bool x (inject_Z m)) eqn:E; [|reflexivity].
    apply Qeq_bool_iff in E. lra.
  Qed.

  Hypothesis vmerge_total : forall a b, exists c, vmerge a b = Ok c.

  Lemma vertical_reduce2 (a b : model_output C D) : exists o, vertical_reduce vmerge [a; b] = Ok o.
  Proof.
    unfold vertical_reduce, ofold_outputs, merge_output_o. destruct a as [a|a|]; simpl; [|eauto|eauto].
    destruct b as [b|b|]; simpl; eauto. destruct (vmerge_total a b) as (c & ->). simpl. eauto.
  Qed.

  Lemma into_f_linear m x a b qa qb : (inject_Z m <= x)%Q -> (x <= inject_Z (m + 1))%Q ->
    call_certain cf t [m] = Ok a -> call_certain cf t [m + 1] = Ok b ->
    c_cost a = Fin qa -> c_cost b = Fin qb ->
    exists c q, call_certain (cf_into_f vmerge cf) t [x] = Ok c /\ c_cost c = Fin q /\
      (q == (inject_Z (m + 1) - x) * qa + (x - inject_Z m) * qb)%Q.
  Proof.
    intros H1 H2 Ha Hb Hqa Hqb. assert (inject_Z (m + 1) == inject_Z m + 1)%Q as Em by (rewrite inject_Z_plus; reflexivity).
    destruct (Qeq_dec x (inject_Z m)) as [E|E]; [|destruct (Qeq_dec x (inject_Z (m + 1))) as [E'|E']].
    - exists a, qa. rewrite (into_f_at_integer m x E). repeat split; auto. rewrite Em, E. ring.
    - exists b, qb. rewrite (into_f_at_integer (m + 1) x E'). repeat split; auto. rewrite E', Em. ring.
    - rewrite (into_f_between x m) by lra. rewrite Ha, Hb. cbn [obind].
      destruct (vertical_reduce2 (c_out a) (c_out b)) as (o & ->). cbn [obind].
      eexists _, _. split; [reflexivity|]. cbn [c_cost]. rewrite Hqa, Hqb. cbn [escale eadd].
      split; [reflexivity|]. reflexivity.
  Qed.

  Lemma into_f_infinite m x a b : (inject_Z m < x)%Q -> (x < inject_Z (m + 1))%Q ->
    call_certain cf t [m] = Ok a -> call_certain cf t [m + 1] = Ok b ->
    (c_cost a = Inf \/ c_cost b = Inf) ->
    exists c, call_certain (cf_into_f vmerge cf) t [x] = Ok c /\ c_cost c = Inf.
  Proof.
    intros H1 H2 Ha Hb HI. rewrite (into_f_between x m) by auto. rewrite Ha, Hb. cbn [obind].
    destruct (vertical_reduce2 (c_out a) (c_out b)) as (o & ->). cbn [obind].
    eexists. split; [reflexivity|]. cbn [c_cost].
    destruct HI as [-> | ->]; simpl; auto. apply eadd_Inf_r.
  Qed.

  Lemma into_f_neighbours m x a b qa qb lo hi : (inject_Z m <= x)%Q -> (x <= inject_Z (m + 1))%Q ->
    call_certain cf t [m] = Ok a -> call_certain cf t [m + 1] = Ok b ->
    c_cost a = Fin qa -> c_cost b = Fin qb ->
    (lo <= qa)%Q -> (lo <= qb)%Q -> (qa <= hi)%Q -> (qb <= hi)%Q ->
    exists c q, call_certain (cf_into_f vmerge cf) t [x] = Ok c /\ c_cost c = Fin q /\ (lo <= q <= hi)%Q.
  Proof.
    intros H1 H2 Ha Hb Hqa Hqb L1 L2 U1 U2.
    destruct (into_f_linear m x a b qa qb H1 H2 Ha Hb Hqa Hqb) as (c & q & Hc & Hq & E).
    exists c, q. split; auto. split; auto. rewrite E.
    assert (inject_Z (m + 1) == inject_Z m + 1)%Q as Em by (rewrite inject_Z_plus; reflexivity).
    rewrite Em in *. set (u := inject_Z m) in *. clearbody u.
    assert (0 <= (u + 1 - x) * (qa - lo))%Q by (apply Qmult_le_0_compat; lra).
    assert (0 <= (x - u) * (qb - lo))%Q by (apply Qmult_le_0_compat; lra).
    assert (0 <= (u + 1 - x) * (hi - qa))%Q by (apply Qmult_le_0_compat; lra).
    assert (0 <= (x - u) * (hi - qb))%Q by (apply Qmult_le_0_compat; lra).
    split; nra.
  Qed.

  (** Convexity *)
  Variable M : Z.
  Variable g : Z -> ext.
  Hypothesis Hg : forall z, 0 <= z <= M -> exists c, call_certain cf t [z] = Ok c /\ c_cost c = g z.
  Hypothesis Hconv : convex_on M g.

  Let F (x : Q) : option ext := number (call_certain (cf_into_f vmerge cf) t [x]).

  (** A finite relaxed value lies on the segment between two finite neighbours. *)
  Lemma finite_segment x q : (0 <= x)%Q -> (x <= inject_Z M)%Q -> F x = Some (Fin q) ->
    exists m m' qa qb, 0 <= m <= m' /\ m' <= M /\ m' <= m + 1 /\ g m = Fin qa /\ g m' = Fin qb /\
      (inject_Z m <= x <= inject_Z m')%Q /\
      ((m = m' /\ (x == inject_Z m)%Q /\ q = qa) \/
       (m' = m + 1 /\ (q == (inject_Z (m + 1) - x) * qa + (x - inject_Z m) * qb)%Q)).
  Proof.
    intros H0 HM HF. unfold F in HF. pose proof (Qfloor_le x) as Hf. pose proof (Qlt_floor x) as Hf'.
    set (m := Qfloor x) in *. assert (0 <= m) as Hm0.
    { assert (inject_Z 0 < inject_Z (m + 1))%Q as HH by (change (inject_Z 0) with 0%Q; lra).
      rewrite <- Zlt_Qlt in HH. lia. }
    assert (m <= M) as HmM.
    { assert (inject_Z m <= inject_Z M)%Q as HH by lra. rewrite <- Zle_Qle in HH. lia. }
    destruct (Qeq_dec x (inject_Z m)) as [E|E].
    - rewrite (into_f_at_integer m x E) in HF. destruct (Hg m) as (c & Hc & Hgc); [lia|].
      rewrite Hc in HF. simpl in HF. injection HF as HF. rewrite Hgc in HF.
      exists m, m, q, q. repeat split; try lia; auto; try lra.
    - assert (m + 1 <= M) as HmM'.
      { assert (inject_Z m < inject_Z M)%Q as HH by lra. rewrite <- Zlt_Qlt in HH. lia. }
      destruct (Hg m) as (a & Ha & Hga); [lia|]. destruct (Hg (m + 1)) as (b & Hb & Hgb); [lia|].
      destruct (g m) as [qa|] eqn:Em, (g (m + 1)) as [qb|] eqn:Em'.
      + destruct (into_f_linear m x a b qa qb) as (c & q' & Hc & Hq & E'); auto; try lra; try congruence.
        rewrite Hc in HF. simpl in HF. injection HF as HF. rewrite Hq in HF. injection HF as <-.
        exists m, (m + 1), qa, qb. repeat split; auto; try lia; try lra.
      + destruct (into_f_infinite m x a b) as (c & Hc & Hq); auto; try lra; try (right; congruence).
        rewrite Hc in HF. simpl in HF. congruence.
      + destruct (into_f_infinite m x a b) as (c & Hc & Hq); auto; try lra; try (left; congruence).
        rewrite Hc in HF. simpl in HF. congruence.
      + destruct (into_f_infinite m x a b) as (c & Hc & Hq); auto; try lra; try (left; congruence).
        rewrite Hc in HF. simpl in HF. congruence.
  Qed.

  Lemma above_line n qn qn' z qz : 0 <= n -> n + 1 <= M -> 0 <= z <= M ->
    g n = Fin qn -> g (n + 1) = Fin qn' -> g z = Fin qz ->
    (qn + (qn' - qn) * (inject_Z z - inject_Z n) <= qz)%Q.
  Proof.
    intros Hn HnM Hz En En' Ez. destruct (Z_le_gt_dec z n) as [H|H].
    - destruct (Hconv z n (n + 1) qz qn') as (qb & Eb & HB); try lia; auto.
      assert (qb = qn) as -> by congruence.
      unfold Z.sub in HB. rewrite !inject_Z_plus, !inject_Z_opp in HB.
      change (inject_Z 1) with 1%Q in HB. nra.
    - destruct (Hconv n (n + 1) z qn qz) as (qb & Eb & HB); try lia; auto.
      assert (qb = qn') as -> by congruence.
      unfold Z.sub in HB. rewrite ?inject_Z_opp, ?inject_Z_plus, ?inject_Z_opp, ?inject_Z_plus in HB.
      change (inject_Z 1) with 1%Q in HB. nra.
  Qed.

  Lemma segment_above_line n qn qn' x q : 0 <= n -> n + 1 <= M ->
    g n = Fin qn -> g (n + 1) = Fin qn' ->
    (0 <= x)%Q -> (x <= inject_Z M)%Q -> F x = Some (Fin q) ->
    (qn + (qn' - qn) * (x - inject_Z n) <= q)%Q.
  Proof.
    intros Hn HnM En En' H0 HM HF.
    destruct (finite_segment x q H0 HM HF) as (m & m' & qa & qb & Hm & Hm' & Hmm & Ea & Eb & Hx & Hcase).
    pose proof (above_line n qn qn' m qa Hn HnM ltac:(lia) En En' Ea) as LA.
    pose proof (above_line n qn qn' m' qb Hn HnM ltac:(lia) En En' Eb) as LB.
    destruct Hcase as [(-> & Hxm & ->)|(-> & Hq)].
    - rewrite Hxm. exact LA.
    - rewrite Hq. rewrite inject_Z_plus in *. change (inject_Z 1) with 1%Q in *.
      set (u := inject_Z m) in *. set (k := inject_Z n) in *. clearbody u k.
      assert (0 <= (u + 1 - x) * (qa - (qn + (qn' - qn) * (u - k))))%Q by (apply Qmult_le_0_compat; lra).
      assert (0 <= (x - u) * (qb - (qn + (qn' - qn) * (u + 1 - k))))%Q by (apply Qmult_le_0_compat; lra).
      lra.
  Qed.

  Lemma F_proper x y : (x == y)%Q -> (0 <= x)%Q -> (x <= inject_Z M)%Q ->
    forall q, F x = Some (Fin q) -> exists q', F y = Some (Fin q') /\ (q' == q)%Q.
  Proof.
    intros E H0 HM q HF.
    destruct (finite_segment x q H0 HM HF) as (m & m' & qa & qb & Hm & Hm' & Hmm & Ea & Eb & Hx & Hcase).
    destruct Hcase as [(-> & Hxm & ->)|(-> & Hq)].
    - exists qa. split; [|reflexivity]. unfold F in *. rewrite (into_f_at_integer m' y) by lra.
      rewrite (into_f_at_integer m' x) in HF by lra. exact HF.
    - destruct (Hg m) as (a & Ha & Hga); [lia|]. destruct (Hg (m + 1)) as (b & Hb & Hgb); [lia|].
      destruct (into_f_linear m y a b qa qb) as (c & q' & Hc & Hq' & E'); auto; try lra; try congruence.
      exists q'. split; [unfold F; rewrite Hc; simpl; congruence|]. rewrite E', Hq, E. reflexivity.
  Qed.

  Lemma finite_between m1 m2 q1 q2 z : 0 <= m1 -> m2 <= M -> g m1 = Fin q1 -> g m2 = Fin q2 ->
    m1 <= z <= m2 -> exists q, g z = Fin q.
  Proof.
    intros H1 H2 E1 E2 Hz. destruct (Hconv m1 z m2 q1 q2) as (q & E & _); try lia; eauto.
  Qed.

  Lemma into_f_convex : convex_on_Q M F.
  Proof.
    intros a b c qa qc [Ha Hab] [Hbc Hc] Fa Fc.
    destruct (Qeq_dec a b) as [E|Eab]; [|destruct (Qeq_dec b c) as [E|Ebc]].
    - destruct (F_proper a b E Ha ltac:(lra) qa Fa) as (qb & Fb & Hq).
      exists qb. split; auto. rewrite Hq, E. lra.
    - destruct (F_proper c b ltac:(lra) ltac:(lra) ltac:(lra) qc Fc) as (qb & Fb & Hq).
      exists qb. split; auto. rewrite Hq, E. lra.
    - pose proof (Qfloor_le b) as Hf. pose proof (Qlt_floor b) as Hf'. set (n := Qfloor b) in *.
      destruct (finite_segment a qa Ha ltac:(lra) Fa) as (ma & ma' & qa1 & qa2 & Hma & Hma' & Hmma & Ea1 & Ea2 & Hxa & _).
      destruct (finite_segment c qc ltac:(lra) Hc Fc) as (mc & mc' & qc1 & qc2 & Hmc & Hmc' & Hmmc & Ec1 & Ec2 & Hxc & _).
      assert (ma <= n).
      { assert (inject_Z ma < inject_Z (n + 1))%Q as HH by lra. rewrite <- Zlt_Qlt in HH. lia. }
      assert (n + 1 <= mc').
      { assert (inject_Z n < inject_Z mc')%Q as HH by lra. rewrite <- Zlt_Qlt in HH. lia. }
      destruct (finite_between ma mc' qa1 qc2 n) as (qn & En); try lia; auto.
      destruct (finite_between ma mc' qa1 qc2 (n + 1)) as (qn' & En'); try lia; auto.
      pose proof (segment_above_line n qn qn' a qa ltac:(lia) ltac:(lia) En En' Ha ltac:(lra) Fa) as LA.
      pose proof (segment_above_line n qn qn' c qc ltac:(lia) ltac:(lia) En En' ltac:(lra) Hc Fc) as LC.
      destruct (Hg n) as (x & Hx & Hgx); [lia|]. destruct (Hg (n + 1)) as (y & Hy & Hgy); [lia|].
      destruct (into_f_linear n b x y qn qn') as (cb & qb & Hcb & Hqb & E); auto; try lra; try congruence.
      exists qb. split; [unfold F; rewrite Hcb; simpl; congruence|].
      rewrite E. rewrite inject_Z_plus. change (inject_Z 1) with 1%Q.
      set (k := inject_Z n) in *. clearbody k.
      assert (0 <= (c - b) * (qa - (qn + (qn' - qn) * (a - k))))%Q by (apply Qmult_le_0_compat; lra).
      assert (0 <= (b - a) * (qc - (qn + (qn' - qn) * (c - k))))%Q by (apply Qmult_le_0_compat; lra).
      lra.
  Qed.
End Relax.

Lemma into_i_into_f {C D} (vmerge : C -> C -> outcome C) (cf : cost_fn (list Z) C D) t z : 1 <= t ->
  call_certain (cf_into_i (cf_into_f vmerge cf)) t [z] = call_certain cf t [z].
Proof.
  intros H. unfold cf_into_i. rewrite certain_call_certain by auto. simpl.
  apply into_f_at_integer; auto. reflexivity.
Qed.

Lemma config_floor_to x : config_floor (config_to x) = x.
Proof.
  unfold config_floor, config_to. rewrite map_map. erewrite map_ext; [apply map_id|].
  intros; apply Qfloor_inject.
Qed.
Lemma config_ceil_to x : config_ceil (config_to x) = x.
Proof.
  unfold config_ceil, config_to. rewrite map_map. erewrite map_ext; [apply map_id|].
  intros; apply Qceiling_inject.
Qed.

Lemma call_mean_of_predictive {X C D} (vmerge : C -> C -> outcome C) (cf : cost_fn X C D) t x :
  call_mean vmerge cf t x = do rs <- call_predictive cf t x; cost_mean vmerge rs.
Proof.
  unfold call_mean, call_predictive, single_mean. destruct (cf_get cf t) as [(s, f)| |]; simpl; auto.
Qed.
Lemma call_certain_of_predictive {X C D} (cf : cost_fn X C D) t x :
  call_certain cf t x = do rs <- call_predictive cf t x; match rs with [c] => Ok c | _ => Panic end.
Proof.
  unfold call_certain, call_predictive, single_certain. destruct (cf_get cf t) as [(s, f)| |]; simpl; auto.
Qed.

Lemma cost_eq_refl {C D} (c : cost C D) : cost_eq c c.
Proof. split; [reflexivity|auto]. Qed.
Lemma outcome_cost_refl {C D} (o : outcome (cost C D)) : outcome_rel cost_eq o o.
Proof. destruct o; simpl; auto. apply cost_eq_refl. Qed.
Lemma outcome_cost_sym {C D} (a b : outcome (cost C D)) : outcome_rel cost_eq a b -> outcome_rel cost_eq b a.
Proof.
  destruct a, b; simpl; auto. intros [H1 H2]. split; auto. symmetry; auto.
Qed.
Lemma outcome_cost_trans {C D} (a b c : outcome (cost C D)) :
  outcome_rel cost_eq a b -> outcome_rel cost_eq b c -> outcome_rel cost_eq a c.
Proof.
  destruct a, b, c; simpl; try tauto; try congruence. intros [H1 H2] [H3 H4]. split; [|congruence].
  rewrite H1. exact H3.
Qed.

Lemma ssco_round_trip {C D} (vmerge : C -> C -> outcome C) (outside : D) (p : gssco Z C D) t z c : 1 <= t ->
  length (g_bounds p) = 1%nat ->
  call_predictive (g_cost p) t [z] = Ok [c] ->
  g_bounds (ssco_into_i (ssco_into_f vmerge p)) = g_bounds p /\
  outcome_rel cost_eq (gssco_hit valZ vmerge outside (ssco_into_i (ssco_into_f vmerge p)) t [z])
                      (gssco_hit valZ vmerge outside p t [z]).
Proof.
  intros Ht Hb Hc. assert (g_bounds (ssco_into_i (ssco_into_f vmerge p)) = g_bounds p) as EB by (simpl; apply config_floor_to).
  split; auto. unfold gssco_hit, call_mean_within. rewrite EB.
  destruct (within_upper valZ (g_bounds p) [z]) as [[|]| |]; simpl; auto.
  - eapply outcome_cost_trans; [apply certain_call_mean; auto|]. simpl.
    rewrite into_f_at_integer with (z := z); [|auto|reflexivity].
    rewrite call_certain_of_predictive, Hc, call_mean_of_predictive, Hc. cbn [obind].
    apply outcome_cost_sym. apply cost_mean_single.
  - apply cost_eq_refl.
Qed.

(** ** Rounding *)
Lemma config_below_ceil x : config_below x (config_ceil x).
Proof. unfold config_below, config_ceil. induction x; simpl; constructor; auto. apply Qle_ceiling. Qed.
Lemma config_above_floor x : config_above x (config_floor x).
Proof. unfold config_above, config_floor. induction x; simpl; constructor; auto. apply Qfloor_le. Qed.

Lemma config_ceil_least x z : config_below x z -> configs_le (config_ceil x) z.
Proof.
  unfold config_below, configs_le, config_ceil. induction 1; simpl; constructor; auto.
  pose proof (Qceiling_lt x) as H1. assert (inject_Z (Qceiling x - 1) < inject_Z y)%Q as HH by lra.
  rewrite <- Zlt_Qlt in HH. lia.
Qed.
Lemma config_floor_greatest x z : config_above x z -> configs_le z (config_floor x).
Proof.
  unfold config_above, configs_le, config_floor. induction 1; simpl; constructor; auto.
  pose proof (Qlt_floor x) as H1. assert (inject_Z y < inject_Z (Qfloor x + 1))%Q as HH by lra.
  rewrite <- Zlt_Qlt in HH. lia.
Qed.

Lemma in_box_rounded bounds x : in_box valQ (config_to bounds) x ->
  feasible_config bounds (config_ceil x) /\ feasible_config bounds (config_floor x).
Proof.
  unfold in_box, feasible_config, config_to, config_ceil, config_floor. simpl.
  revert x. induction bounds as [|u bs IH]; simpl; intros x H; inversion H; subst; simpl.
  - split; constructor.
  - destruct (IH _ H4) as [I1 I2]. destruct H2 as [H0 H1].
    pose proof (Qfloor_le y). pose proof (Qlt_floor y). pose proof (Qle_ceiling y). pose proof (Qceiling_lt y).
    split; constructor; auto.
    + split.
      * assert (inject_Z 0 <= inject_Z (Qceiling y))%Q as HH by (change (inject_Z 0) with 0%Q; lra).
        rewrite <- Zle_Qle in HH. lia.
      * assert (inject_Z (Qceiling y - 1) < inject_Z u)%Q as HH by lra. rewrite <- Zlt_Qlt in HH. lia.
    + split.
      * assert (inject_Z 0 < inject_Z (Qfloor y + 1))%Q as HH by (change (inject_Z 0) with 0%Q; lra).
        rewrite <- Zlt_Qlt in HH. lia.
      * assert (inject_Z (Qfloor y) <= inject_Z u)%Q as HH by lra. rewrite <- Zle_Qle in HH. lia.
Qed.

Lemma to_i_least xs :
  Forall2 config_below xs (schedule_to_i xs) /\
  forall zs, Forall2 config_below xs zs -> Forall2 configs_le (schedule_to_i xs) zs.
Proof.
  split.
  - unfold schedule_to_i. induction xs; simpl; constructor; auto. apply config_below_ceil.
  - unfold schedule_to_i. induction 1; simpl; constructor; auto. apply config_ceil_least; auto.
Qed.

Lemma to_i_feasible t_end bounds xs :
  Z.of_nat (length xs) = t_end -> Forall (in_box valQ (config_to bounds)) xs ->
  feasible_schedule t_end bounds (schedule_to_i xs).
Proof.
  intros Hl H. split; [unfold schedule_to_i; rewrite map_length; auto|].
  unfold schedule_to_i. apply Forall_map. eapply Forall_impl; [|exact H].
  intros x Hx. apply in_box_rounded; auto.
Qed.

Lemma to_i_to xs : schedule_to_i (schedule_to xs) = xs.
Proof.
  unfold schedule_to_i, schedule_to. rewrite map_map. erewrite map_ext; [apply map_id|].
  intros; apply config_ceil_to.
Qed.

(** ** Raw encodings *)
Section Raw.
  Context {A : Type}.

  Lemma chunks_concat d : forall (xs : list (list A)) (pre : list A),
    Forall (fun x => length x = d) xs ->
    map (fun t => firstn d (skipn (length pre + d * t) (pre ++ concat xs))) (seq 0 (length xs)) = xs.
  Proof.
    induction xs as [|x xs IH]; intros pre H; [reflexivity|].
    inversion H; subst. cbn [length seq map]. f_equal.
    - rewrite Nat.mul_0_r, Nat.add_0_r, skipn_app, skipn_all, Nat.sub_diag. simpl.
      rewrite firstn_app, firstn_all, Nat.sub_diag. simpl. apply app_nil_r.
    - rewrite <- (IH (pre ++ x)) at 2 by auto. rewrite <- seq_shift, map_map. apply map_ext. intros i.
      rewrite app_length. simpl. rewrite <- app_assoc. do 2 f_equal. lia.
  Qed.

  Lemma concat_length d (xs : list (list A)) : Forall (fun x => length x = d) xs ->
    length (concat xs) = (d * length xs)%nat.
  Proof.
    induction 1 as [|x xs Hx _ IH]; simpl; [lia|]. rewrite app_length, IH, Hx. lia.
  Qed.

  Lemma skipn_plus a b : forall l : list A, skipn a (skipn b l) = skipn (b + a) l.
  Proof.
    induction b as [|b IH]; intros l; [reflexivity|]. destruct l; simpl; [|apply IH].
    destruct a; reflexivity.
  Qed.

  Lemma concat_chunks d : forall n (l : list A), length l = (d * n)%nat ->
    concat (map (fun t => firstn d (skipn (d * t) l)) (seq 0 n)) = l.
  Proof.
    induction n as [|n IH]; intros l Hl.
    - rewrite Nat.mul_0_r in Hl. destruct l; [reflexivity|discriminate].
    - cbn [seq map concat]. rewrite Nat.mul_0_r. simpl skipn. rewrite <- seq_shift, map_map.
      transitivity (firstn d l ++ skipn d l); [|apply firstn_skipn].
      f_equal. transitivity (concat (map (fun t => firstn d (skipn (d * t) (skipn d l))) (seq 0 n))).
      + f_equal. apply map_ext. intros i. f_equal. rewrite skipn_plus. f_equal. lia.
      + apply IH. rewrite skipn_length. lia.
  Qed.

  Lemma from_raw_flatten d (xs : list (list A)) : 0 <= d ->
    Forall (fun x => Z.of_nat (length x) = d) xs ->
    from_raw d (Z.of_nat (length xs)) (flatten xs) = Ok xs.
  Proof.
    intros Hd H. assert (Forall (fun x => length x = Z.to_nat d) xs) as H'.
    { eapply Forall_impl; [|exact H]. simpl. intros; lia. }
    unfold from_raw, raw_encoding_len, flatten. rewrite (concat_length _ _ H').
    rewrite (proj2 (Z.eqb_eq _ _)) by lia.
    rewrite (proj2 (Z.ltb_ge d 0)), (proj2 (Z.ltb_ge _ 0)) by lia. simpl. f_equal.
    rewrite Nat2Z.id. apply (chunks_concat (Z.to_nat d) xs []); auto.
  Qed.

  Lemma from_raw_ok d w (l : list A) xs : from_raw d w l = Ok xs ->
    flatten xs = l /\ Z.of_nat (length xs) = w /\ Forall (fun x => Z.of_nat (length x) = d) xs.
  Proof.
    unfold from_raw, raw_encoding_len. destruct (Z.of_nat (length l) =? d * w) eqn:E; [|discriminate].
    destruct (d <? 0) eqn:Ed; [discriminate|]. destruct (w <? 0) eqn:Ew; [discriminate|]. simpl.
    intros H. injection H as <-. assert (length l = Z.to_nat d * Z.to_nat w)%nat as Hl by nia.
    split; [apply concat_chunks; auto|]. split.
    - rewrite map_length, seq_length. lia.
    - apply Forall_map. apply Forall_forall. intros i Hi. apply in_seq in Hi.
      rewrite firstn_length, skipn_length. nia.
  Qed.

  Lemma from_raw_wrong d w (l : list A) : Z.of_nat (length l) <> d * w -> from_raw d w l = Panic.
  Proof.
    intros H. unfold from_raw, raw_encoding_len. rewrite (proj2 (Z.eqb_neq _ _) H). reflexivity.
  Qed.

  Lemma build_raw_spec w (x : list A) : 0 <= w ->
    build_raw w x = Ok (flatten (repeat x (Z.to_nat w))).
  Proof.
    intros Hw. unfold build_raw. rewrite (proj2 (Z.ltb_ge w 0)) by lia.
    assert (forall n s, flat_map (fun _ => x) (seq s n) = concat (repeat x n)) as HA.
    { induction n; intros s; simpl; [auto|]. rewrite IHn. auto. }
    rewrite HA. rewrite (concat_length (length x)).
    - rewrite repeat_length. unfold raw_encoding_len. rewrite (proj2 (Z.eqb_eq _ _)) by lia. reflexivity.
    - apply Forall_forall. intros y Hy. apply repeat_spec in Hy. congruence.
  Qed.
End Raw.
