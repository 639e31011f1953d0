(** Integer arithmetic does not overflow for bounds of up to 2^28 servers, and panics beyond. *)
From Coq Require Import Lia Qpower Qround.
From Verif Require Import GraphSearchProofs ApproxSearchProofs OverflowModel ObjectiveSpec Search1DTop Search1DProps.
Local Open Scope Z_scope.

Lemma arith_fits b z : - 2 ^ 31 <= z < 2 ^ 31 -> arith b z = Ok z.
Proof.
  intros H. unfold arith. destruct (- 2 ^ 31 <=? z) eqn:E; [|apply Z.leb_gt in E; lia].
  destruct (z <? 2 ^ 31) eqn:F; [reflexivity|apply Z.ltb_ge in F; lia].
Qed.
Lemma arith_overflow z : 2 ^ 31 <= z -> arith Checked z = Panic.
Proof. intros H. unfold arith. destruct (z <? 2 ^ 31) eqn:F; [apply Z.ltb_lt in F; lia|]. rewrite andb_false_r. reflexivity. Qed.

Lemma map_checked_ok f g l : (forall a, In a l -> f a = Ok (g a)) -> map_checked f l = Ok (map g l).
Proof.
  induction l as [|a l IH]; intros H; [reflexivity|]. cbn [map_checked map]. rewrite (H a) by (left; reflexivity).
  cbn. rewrite IH by (intros; apply H; right; assumption). reflexivity.
Qed.

Section Search.
  Variable b : build.
  Variable hit : Z -> Z -> ext.
  Variable beta : Q.
  Variable alpha : Q.
  Variable inverted : bool.
  Variable x_start : Z.
  Variable m : Z.
  Hypothesis Hm : 0 <= m <= 2 ^ 28.

  Lemma initial_rows_agree t : machine_initial_rows b m t = select_initial_rows m t.
  Proof.
    unfold machine_initial_rows, select_initial_rows. apply map_checked_ok. intros e He.
    change (2 ^ 28) with 268435456 in Hm.
    rewrite arith_fits by (change (2 ^ 31) with 2147483648; destruct He as [<-|[<-|[<-|[<-|[<-|[]]]]]]; lia).
    cbn. rewrite Z.quot_div_nonneg; [reflexivity| |lia]. destruct He as [<-|[<-|[<-|[<-|[<-|[]]]]]]; lia.
  Qed.

  Definition inside (j : Z) : Prop := 0 <= j <= m.

  Lemma next_rows_agree xs k t : Forall inside xs -> 0 <= k <= 28 ->
    machine_next_rows b m xs k t = select_next_rows m xs k t.
  Proof.
    intros Hx Hk. unfold machine_next_rows, select_next_rows.
    destruct (nth_error xs (Z.to_nat (t - 1))) as [x|] eqn:E; [|reflexivity]. cbn [from_option obind].
    apply nth_error_In in E. rewrite Forall_forall in Hx. specialize (Hx x E). unfold inside in Hx.
    assert (P : 0 < 2 ^ k <= 2 ^ 28) by (split; [apply Z.pow_pos_nonneg; lia|apply Z.pow_le_mono_r; lia]).
    change (2 ^ 28) with 268435456 in *.
    rewrite (map_checked_ok _ (fun e => x + e * 2 ^ k)); [reflexivity|].
    intros e He. assert (Re : -2 <= e <= 2) by (destruct He as [<-|[<-|[<-|[<-|[<-|[]]]]]]; lia).
    rewrite arith_fits by (change (2 ^ 31) with 2147483648; lia). cbn [obind].
    rewrite arith_fits by (change (2 ^ 31) with 2147483648; nia). cbn [obind].
    rewrite arith_fits by (change (2 ^ 31) with 2147483648; nia). reflexivity.
  Qed.

  (** All configurations of a path are among the rows selected. *)
  Definition stored (ps : paths) : Prop := forall v p, lookup ps v = Some p -> Forall inside (pa_xs p).

  Lemma stored_insert ps v p : stored ps -> Forall inside (pa_xs p) -> stored (insert ps v p).
  Proof.
    intros H Hp w q. unfold insert. cbn [lookup]. destruct (_ && _); [|apply H]. intros E. injection E as <-. exact Hp.
  Qed.
  Lemma subpath_stored ps t from to r : stored ps -> inside to ->
    find_shortest_subpath hit beta alpha inverted ps t from to = Ok r -> stored r.
  Proof.
    intros H Ht. unfold find_shortest_subpath. destruct from as [|s0 from]; [discriminate|].
    destruct (pick_source _ _ _ _ _ _ _ _ _) as [picked|e|]; cbn [obind]; try discriminate.
    unfold update_paths. destruct (lookup ps (t - 1, fst picked)) as [prev|] eqn:E; cbn [from_option obind]; [|discriminate].
    intros F. injection F as <-. apply stored_insert; [exact H|]. cbn [pa_xs]. apply Forall_app. split; [exact (H _ _ E)|].
    constructor; [exact Ht|constructor].
  Qed.
  Lemma subpaths_stored t from rows : Forall inside rows -> forall ps r, stored ps ->
    find_subpaths hit beta alpha inverted ps t from rows = Ok r -> stored r.
  Proof.
    intros Hr. induction Hr as [|j rows Hj Hr IH]; intros ps r H E; cbn [find_subpaths] in E.
    - injection E as <-. exact H.
    - destruct (find_shortest_subpath _ _ _ _ ps t from j) as [ps'|e|] eqn:F; cbn [obind] in E; try discriminate.
      eapply IH; [|exact E]. eapply subpath_stored; eauto.
  Qed.
  Lemma layers_stored sel ts : (forall t rows, sel t = Ok rows -> Forall inside rows) -> forall ps prev r, stored ps ->
    find_layers hit beta alpha inverted sel ps prev ts = Ok r -> stored (fst r).
  Proof.
    intros Hs. induction ts as [|t ts IH]; intros ps prev r H E; cbn [find_layers] in E.
    - injection E as <-. exact H.
    - destruct (sel t) as [rows|e|] eqn:S; cbn [obind] in E; try discriminate.
      destruct (find_subpaths _ _ _ _ ps t prev rows) as [ps'|e|] eqn:F; cbn [obind] in E; try discriminate.
      refine (IH _ _ _ _ E). exact (subpaths_stored t prev rows (Hs t rows S) ps ps' H F).
  Qed.
  Lemma final_stored t_end rows : forall ps result r, stored ps -> Forall inside (pa_xs result) ->
    pick_final ps t_end rows result = Ok r -> Forall inside (pa_xs r).
  Proof.
    induction rows as [|i rows IH]; intros ps result r H Hr E; cbn [pick_final] in E.
    - injection E as <-. exact Hr.
    - destruct (lookup ps (t_end, i)) as [p|] eqn:L; cbn [from_option obind] in E; [|discriminate].
      eapply IH; [exact H| |exact E]. destruct (eltb _ _); [exact (H _ _ L)|exact Hr].
  Qed.
  Lemma schedule_inside t_end sel r : (forall t rows, sel t = Ok rows -> Forall inside rows) ->
    find_schedule hit beta alpha inverted x_start t_end sel = Ok r -> Forall inside (pa_xs r).
  Proof.
    intros Hs. unfold find_schedule. destruct (find_layers _ _ _ _ _ _ _ _) as [[ps rows]|e|] eqn:L; cbn [obind]; try discriminate.
    intros E. refine (final_stored _ _ _ _ _ _ _ E); [|constructor]. refine (layers_stored sel _ Hs _ _ _ _ L).
    apply stored_insert; [|constructor]. intros v p F. discriminate.
  Qed.
  Lemma initial_inside t rows : select_initial_rows m t = Ok rows -> Forall inside rows.
  Proof.
    unfold select_initial_rows. set (l := map _ _). intros E. assert (E' : l = rows) by congruence. rewrite <- E'. subst l. clear E E'. unfold inside. cbn [map].
    assert (R : forall e, 0 <= e <= 4 -> 0 <= e * m / 4 <= m).
    { intros e He. split; [apply Z.div_pos; nia|apply Z.div_le_upper_bound; nia]. }
    pose proof (R 0). pose proof (R 1). pose proof (R 2). pose proof (R 3). pose proof (R 4).
    repeat (constructor; [first [apply (R 0); lia|apply (R 1); lia|apply (R 2); lia|apply (R 3); lia|apply (R 4); lia]|]). constructor.
  Qed.
  Lemma next_inside xs k t rows : select_next_rows m xs k t = Ok rows -> Forall inside rows.
  Proof.
    unfold select_next_rows. destruct (nth_error _ _); cbn [from_option obind]; [|discriminate].
    set (l := map _ _). intros E. assert (E' : filter (fun j => (0 <=? j) && (j <=? m)) l = rows) by congruence.
    rewrite <- E'. apply Forall_forall. intros j Hj. apply filter_In in Hj as [_ Hj].
    apply andb_prop in Hj as [A B]. apply Z.leb_le in A. apply Z.leb_le in B. split; assumption.
  Qed.

  Lemma layers_ext sel sel' ts : (forall t, sel t = sel' t) -> forall ps prev,
    find_layers hit beta alpha inverted sel ps prev ts = find_layers hit beta alpha inverted sel' ps prev ts.
  Proof.
    intros H. induction ts as [|t ts IH]; intros ps prev; cbn [find_layers]; [reflexivity|]. rewrite H.
    destruct (sel' t); cbn [obind]; try reflexivity. destruct (find_subpaths _ _ _ _ _ _ _ _); cbn [obind]; auto.
  Qed.
  Lemma schedule_ext t_end sel sel' : (forall t, sel t = sel' t) ->
    find_schedule hit beta alpha inverted x_start t_end sel = find_schedule hit beta alpha inverted x_start t_end sel'.
  Proof. intros H. unfold find_schedule. rewrite (layers_ext sel sel' _ H). reflexivity. Qed.

  Lemma refine_agree t_end n : (n <= 28)%nat -> forall p, Forall inside (pa_xs p) ->
    machine_refine b hit beta alpha inverted x_start t_end m n p = refine hit beta alpha inverted x_start t_end m n p.
  Proof.
    induction n as [|n IH]; intros Hn p Hp; cbn [machine_refine refine]; [reflexivity|].
    rewrite (schedule_ext t_end _ (select_next_rows m (pa_xs p) (Z.of_nat n))) by (intros t; apply next_rows_agree; [exact Hp|lia]).
    destruct (find_schedule _ _ _ _ _ _ _) as [p'|e|] eqn:E; cbn [obind]; try reflexivity.
    apply IH; [lia|]. refine (schedule_inside _ _ _ _ E). intros t rows. apply next_inside.
  Qed.
  Lemma k_init_small : (k_init m <= 28)%nat.
  Proof.
    unfold k_init. destruct (2 <? m); [|lia]. assert (Z.log2 m <= Z.log2 (2 ^ 28)) by (apply Z.log2_le_mono; lia).
    rewrite Z.log2_pow2 in H by lia. lia.
  Qed.
  Lemma search_agree t_end :
    machine_search_pow2 b hit beta alpha inverted x_start t_end m = search_pow2 hit beta alpha inverted x_start t_end m.
  Proof.
    unfold machine_search_pow2, search_pow2. rewrite (schedule_ext t_end _ (select_initial_rows m)) by apply initial_rows_agree.
    destruct (find_schedule _ _ _ _ _ _ _) as [p|e|] eqn:E; cbn [obind]; try reflexivity.
    apply refine_agree; [apply k_init_small|]. refine (schedule_inside _ _ _ _ E). intros t rows. apply initial_inside.
  Qed.
End Search.

Lemma log2_up_small m : 0 <= m <= 2 ^ 28 -> 0 <= Z.log2_up m <= 28.
Proof.
  intros H. split; [apply Z.log2_up_nonneg|]. assert (Z.log2_up m <= Z.log2_up (2 ^ 28)) by (apply Z.log2_up_le_mono; lia).
  rewrite Z.log2_up_pow2 in H0 by lia. exact H0.
Qed.
Lemma padded_range m : 0 <= m <= 2 ^ 28 -> 0 <= 2 ^ Z.log2_up m <= 2 ^ 28.
Proof. intros H. assert (R := log2_up_small m H). split; [apply Z.pow_nonneg; lia|apply Z.pow_le_mono_r; lia]. Qed.

Section Top.
  Context {C D : Type}.
  Variable b : build.
  Variable outside : D.

  Lemma machine_agree (p : ssco C D) x_start inverted alpha l m : s_bounds p = [m] -> 0 <= m <= 2 ^ 28 ->
    machine_graph_search_1d b outside p x_start inverted alpha l = optimal_graph_search_1d outside p x_start inverted alpha l.
  Proof.
    intros Hb Hm. unfold machine_graph_search_1d, optimal_graph_search_1d. destruct l; [reflexivity|].
    destruct (negb _); [reflexivity|]. rewrite Hb. destruct (s_switching p) as [|beta [|? ?]] eqn:Es; try reflexivity.
    destruct (is_pow_of_2 m) eqn:P; cbn [obind].
    - apply search_agree, Hm.
    - assert (R := padded_range m Hm). rewrite arith_fits by (change (2 ^ 28) with 268435456 in R; change (2 ^ 31) with 2147483648; lia).
      cbn [obind]. unfold padded_bound. rewrite search_agree by exact R. reflexivity.
  Qed.

  Lemma machine_optimal (p : ssco C D) (x_start : Z) (inverted : bool) (alpha beta : Q) (m : Z) :
    s_d p = 1 -> s_bounds p = [m] -> s_switching p = [beta] -> 0 <= s_tend p ->
    0 <= m <= 2 ^ 28 -> x_start <= m ->
    (0 <= alpha)%Q -> (0 <= beta)%Q ->
    (forall t, 1 <= t <= s_tend p -> convex_on m (fun j => c_cost (s_hit p t [j]))) ->
    (forall t, 1 <= t <= s_tend p -> is_fin (c_cost (s_hit p t [m]))) ->
    (forall t j, 1 <= t <= s_tend p -> 0 <= j <= m -> ele (Fin 0) (c_cost (s_hit p t [j]))) ->
    let J := total_cost (fun t x => c_cost (s_hit p t x)) (switching [beta] inverted) alpha 1 [x_start] in
    exists r,
      machine_graph_search_1d b outside p x_start inverted alpha None = Ok r /\
      is_fin (pa_cost r) /\
      let xs := map (fun j => [j]) (pa_xs r) in
      feasible_schedule (s_tend p) [m] xs /\
      eeq (pa_cost r) (J xs) /\
      forall ys, feasible_schedule (s_tend p) [m] ys -> ele (pa_cost r) (J ys).
  Proof.
    intros Hd Hb Hs Ht Hm Hx Ha Hbe Hc Hf Hn. rewrite (machine_agree p x_start inverted alpha None m Hb Hm).
    exact (search_1d_optimal_padded C D outside p x_start inverted alpha beta m Hd Hb Hs Ht (proj1 Hm) Hx Ha Hbe Hc Hf Hn).
  Qed.

  Lemma zrange_first t : 1 <= t -> exists r, zrange 1 t = 1 :: r.
  Proof.
    intros H. unfold zrange. destruct (Z.to_nat (t - 1 + 1)) as [|n] eqn:E; [lia|]. cbn [seq map]. eexists. reflexivity.
  Qed.
  Lemma search_panics hit beta alpha inverted x_start t_end m : 1 <= t_end -> 2 ^ 29 <= m ->
    machine_search_pow2 Checked hit beta alpha inverted x_start t_end m = Panic.
  Proof.
    intros Ht Hm. unfold machine_search_pow2, find_schedule. destruct (zrange_first t_end Ht) as (r & ->).
    cbn [find_layers]. assert (R : machine_initial_rows Checked m 1 = Panic); [|rewrite R; reflexivity].
    assert (O : arith Checked (4 * m) = Panic) by (apply arith_overflow; change (2 ^ 29) with 536870912 in Hm; change (2 ^ 31) with 2147483648; lia).
    assert (K : forall z, (exists y, arith Checked z = Ok y) \/ arith Checked z = Panic).
    { intros z. unfold arith. destruct (_ && _); eauto. }
    unfold machine_initial_rows. cbn [map_checked].
    destruct (K (0 * m)) as [[y0 E0]|E0]; rewrite E0; cbn [obind]; [|reflexivity].
    destruct (K (1 * m)) as [[y1 E1]|E1]; rewrite E1; cbn [obind]; [|reflexivity].
    destruct (K (2 * m)) as [[y2 E2]|E2]; rewrite E2; cbn [obind]; [|reflexivity].
    destruct (K (3 * m)) as [[y3 E3]|E3]; rewrite E3; cbn [obind]; [|reflexivity].
    rewrite O. reflexivity.
  Qed.
  Lemma machine_panics (p : ssco C D) x_start inverted alpha beta m :
    s_d p = 1 -> s_bounds p = [m] -> s_switching p = [beta] -> 1 <= s_tend p -> 2 ^ 28 < m ->
    machine_graph_search_1d Checked outside p x_start inverted alpha None = Panic.
  Proof.
    intros Hd Hb Hs Ht Hm. unfold machine_graph_search_1d. rewrite Hd, Hb, Hs. cbn [Z.eqb Pos.eqb negb].
    destruct (is_pow_of_2 m) eqn:P; cbn [obind].
    - apply search_panics; [exact Ht|]. apply is_pow_of_2_spec in P as (k & Hk & ->); [|lia].
      assert (28 < k) by (apply (Z.pow_lt_mono_r_iff 2); lia). apply Z.pow_le_mono_r; lia.
    - assert (L : 29 <= Z.log2_up m).
      { assert (28 < Z.log2_up m); [|lia]. apply (Z.pow_lt_mono_r_iff 2); [lia|apply Z.log2_up_nonneg|].
        eapply Z.lt_le_trans; [exact Hm|]. apply Z.log2_up_spec. change (2 ^ 28) with 268435456 in Hm. lia. }
      assert (B : 2 ^ 29 <= 2 ^ Z.log2_up m) by (apply Z.pow_le_mono_r; lia).
      unfold arith. destruct (_ && _); cbn [obind]; [|reflexivity]. apply search_panics; assumption.
  Qed.
End Top.

(** ** The grid of the approximate search *)
Lemma qfloor_nonneg q : (0 <= q)%Q -> 0 <= Qfloor q.
Proof. intros H. change 0 with (Qfloor 0). apply Qfloor_resp_le, H. Qed.
Lemma qceiling_nonneg q : (0 <= q)%Q -> 0 <= Qceiling q.
Proof. intros H. change 0 with (Qceiling 0). apply Qceiling_resp_le, H. Qed.

Lemma saturate_below z max : 0 <= z -> max < 2 ^ 31 - 1 ->
  (max <? saturate z) = (max <? z) /\ (z <= max -> saturate z = z).
Proof.
  unfold saturate. change (2 ^ 31) with 2147483648. intros Hz Hm. split; [|lia].
  destruct (max <? z) eqn:E; [apply Z.ltb_lt in E; apply Z.ltb_lt|apply Z.ltb_ge in E; apply Z.ltb_ge]; lia.
Qed.
Lemma build_loop_agree gamma max : (0 <= gamma)%Q -> max < 2 ^ 31 - 1 -> forall fuel i vs,
  machine_build_loop fuel gamma max i vs = build_loop fuel gamma max i vs.
Proof.
  intros Hg Hm. induction fuel as [|fuel IH]; intros i vs; cbn [machine_build_loop build_loop]; [reflexivity|].
  assert (P : (0 <= gamma ^ i)%Q) by (apply Qpower_pos, Hg).
  destruct (saturate_below _ max (qfloor_nonneg _ P) Hm) as [-> L]. destruct (max <? Qfloor _) eqn:E; [reflexivity|].
  apply Z.ltb_ge in E. rewrite (L E).
  destruct (saturate_below _ max (qceiling_nonneg _ P) Hm) as [-> U]. destruct (max <? Qceiling _) eqn:F; [reflexivity|].
  apply Z.ltb_ge in F. rewrite (U F). apply IH.
Qed.
Lemma approx_agree {C D} (outside : D) sched fuel (p : ssco C D) gamma cache inverted alpha l :
  (0 <= gamma)%Q -> (forall m, In m (s_bounds p) -> m < 2 ^ 31 - 1) ->
  machine_approx_graph_search outside sched fuel p gamma cache inverted alpha l =
  approx_graph_search outside sched fuel p gamma cache inverted alpha l.
Proof.
  intros Hg Hb. unfold machine_approx_graph_search, approx_graph_search.
  assert (E : machine_build_values fuel (s_bounds p) gamma = build_values fuel (s_bounds p) gamma); [|rewrite E; reflexivity].
  unfold machine_build_values, build_values. destruct (max_of (s_bounds p)) as [max|] eqn:M; [|reflexivity].
  rewrite build_loop_agree; [reflexivity|exact Hg|]. apply Hb. exact (proj1 (max_of_spec _ _ M)).
Qed.

Lemma saturated_never_ends gamma : forall fuel i vs, machine_build_loop fuel gamma (2 ^ 31 - 1) i vs = None.
Proof.
  assert (S : forall z, (2 ^ 31 - 1 <? saturate z) = false).
  { intros z. apply Z.ltb_ge. unfold saturate. change (2 ^ 31) with 2147483648. lia. }
  induction fuel as [|fuel IH]; intros i vs; cbn [machine_build_loop]; [reflexivity|]. rewrite !S. apply IH.
Qed.
