(** The one-dimensional graph search with rounding: whole instances, and the search without rounding. *)
From Coq Require Import Lqa.
From Verif Require Import NumLemmas ObjectiveSpec ObjectiveProofs Search1DModel Search1DProofs Search1DTop
  GraphSearchSpec FloatModel FloatSpec FloatProofs Float1DModel Float1DProofs.
From Verif Require Import ProblemModel.
Local Open Scope Z_scope.

Section Top.
  Context {C D : Type}.
  Variable outside : D.
  Variable rnd : Q -> Q.
  Variable F : Q -> Prop.
  Variables u small : Q.
  Hypothesis HR : rounds rnd F u small.

  Lemma up_compat n a b c : eeq a b -> up_to_rounding u n a c -> up_to_rounding u n b c.
  Proof. destruct a, b, c; cbn; try tauto. intros E H. rewrite <- E. exact H. Qed.

  Lemma represented_hits (p : ssco C D) alpha t x : representable_instance F small alpha p ->
    match c_cost (ssco_hit_cost outside p t x) with Fin q => F q | Inf => True end.
  Proof.
    intros [H _]. unfold ssco_hit_cost. destruct (within (s_bounds p) x) eqn:E; [|exact I].
    apply H. rewrite <- within_inside. exact E.
  Qed.

  Lemma padded_representable (p : ssco C D) alpha m0 : representable_instance F small alpha p -> 0 <= m0 ->
    representable_instance F small alpha (f_make_pow_of_2 rnd outside p m0).
  Proof.
    intros Hp Hm. split; [|exact (proj2 Hp)]. intros t x Hx. cbn. destruct x as [|j x]; [exact I|].
    destruct (j <=? m0) eqn:E; [apply (represented_hits p alpha); exact Hp|]. cbn [c_cost].
    assert (G := represented_hits p alpha t [m0] Hp).
    destruct (c_cost (ssco_hit_cost outside p t [m0])) as [c|]; cbn; auto.
    assert (0 <= c)%Q by (apply (r_nonneg _ _ _ _ HR); exact G).
    assert (0 <= c + f64_epsilon)%Q by (unfold f64_epsilon; assert (0 <= 1 # 2 ^ 52)%Q by discriminate; lra).
    assert (0 <= rnd (c + f64_epsilon))%Q by (apply (r_nonneg _ _ _ _ HR); apply (r_in _ _ _ _ HR); assumption).
    apply (r_in _ _ _ _ HR). apply Qmult_le_0_compat; [|assumption].
    change 0%Q with (inject_Z 0). rewrite <- Zle_Qle. lia.
  Qed.

  Definition searched (p : ssco C D) (m0 : Z) : ssco C D :=
    if is_pow_of_2 m0 then p else f_make_pow_of_2 rnd outside p m0.

  Lemma f_search_1d_proof (p : ssco C D) (x_start : Z) (inverted : bool) (alpha beta : Q) (m0 : Z) :
    s_d p = 1 -> s_bounds p = [m0] -> s_switching p = [beta] -> 0 <= s_tend p -> 0 <= m0 -> (0 <= alpha)%Q ->
    representable_instance F small alpha p ->
    let q := if is_pow_of_2 m0 then p else f_make_pow_of_2 rnd outside p m0 in
    let m := if is_pow_of_2 m0 then m0 else padded_bound m0 in
    let J := total_cost (fun t x => c_cost (ssco_hit_cost outside q t x)) (switching [beta] inverted) alpha 1 [x_start] in
    let coarse := fun ys => Z.of_nat (length ys) = s_tend p /\
                            Forall (fun y => exists e, 0 <= e <= 4 /\ y = [e * m / 4]) ys in
    let n := s_tend p + 3 in
    (exists ys, coarse ys /\ is_fin (J ys)) ->
    exists r,
      f_optimal_graph_search_1d rnd outside p x_start inverted alpha None = Ok r /\
      is_fin (pa_cost r) /\
      let xs := map (fun j => [j]) (pa_xs r) in
      feasible_schedule (s_tend p) [m] xs /\
      up_to_rounding u n (J xs) (pa_cost r) /\
      forall ys, coarse ys -> at_most_rounding u n (pa_cost r) (J ys).
  Proof.
    intros Hd Hb Hsw Ht Hm0 Ha Hrep q m J coarse n Hex.
    assert (Hm : 0 <= m).
    { unfold m. destruct (is_pow_of_2 m0) eqn:E; auto. assert (H := padded_bound_spec m0 Hm0 E). lia. }
    assert (Hq : representable_instance F small alpha q).
    { unfold q. destruct (is_pow_of_2 m0); auto. apply padded_representable; auto. }
    unfold f_optimal_graph_search_1d. rewrite Hd, Z.eqb_refl. cbn [negb]. rewrite Hb, Hsw. fold q m.
    set (hit := fun t j => c_cost (ssco_hit_cost outside q t [j])).
    assert (HJ : forall zs, eeq (pc hit beta alpha inverted 1 x_start zs) (J (map (fun j => [j]) zs))).
    { intros zs. rewrite pc_total_cost. apply total_cost_ext with (P := fun x => exists z, x = [z]).
      - intros t' x _ (z & ->). reflexivity.
      - rewrite Forall_map. apply Forall_forall. intros z _. eauto. }
    assert (Hco : forall ys, coarse ys -> exists zs, ys = map (fun j => [j]) zs /\ length zs = Z.to_nat (s_tend p) /\
                    Forall (fun z => In z (quarters m)) zs).
    { intros ys [Hl HF]. assert (G : exists zs, ys = map (fun j => [j]) zs /\ Forall (fun z => In z (quarters m)) zs).
      { clear - HF. induction HF as [|y ys (e & He & ->) _ (zs & -> & IH)]; [exists []; auto|].
        exists (e * m / 4 :: zs). split; [reflexivity|]. constructor; auto.
        unfold quarters. apply (in_map (fun e => e * m / 4)). cbn [In]. lia. }
      destruct G as (zs & -> & G). exists zs. rewrite map_length in Hl. split; auto. split; [lia|exact G]. }
    assert (HhF : forall t j, match hit t j with Fin x => F x | Inf => True end).
    { intros t j. apply (represented_hits q alpha). exact Hq. }
    assert (Hbeta : F beta /\ no_underflow small beta /\ no_underflow small (alpha * beta)).
    { destruct Hrep as [_ H]. rewrite Hsw in H. inversion H; auto. }
    set (T := Z.to_nat (s_tend p)) in *.
    assert (ET : Z.of_nat T = s_tend p) by (unfold T; lia).
    destruct (f_search_pow2_sound rnd F u small HR hit beta alpha inverted x_start Ha HhF Hbeta T m Hm)
      as (r & Hr & (R1 & R2 & R3 & R4) & Hmin).
    { destruct Hex as (ys & Hc & Hfin). destruct (Hco ys Hc) as (zs & -> & H1 & H2). exists zs.
      split; [exact H1|]. split; [exact H2|]. eapply eeq_fin; [apply HJ|exact Hfin]. }
    rewrite ET in Hr. exists r. split; [exact Hr|]. split; [exact R3|].
    assert (En : Z.of_nat (T + 3) = n) by (unfold T, n; lia).
    split; [apply singletons_feasible; auto; unfold T in *; lia|].
    assert (N := fpc_near rnd F u small HR hit beta alpha inverted Ha HhF Hbeta 1 x_start).
    split.
    - apply (up_compat n (pc hit beta alpha inverted 1 x_start (pa_xs r))); [apply HJ|].
      assert (G := N (pa_xs r)). rewrite <- R4, R1 in G. apply (up_of_near F u) in G. rewrite En in G. exact G.
    - intros ys Hc. destruct (Hco ys Hc) as (zs & -> & H1 & H2). specialize (Hmin zs H1 H2).
      specialize (N zs). rewrite H1 in N. apply (up_of_near F u) in N. rewrite En in N.
      assert (E := HJ zs). clear - Hmin N E.
      destruct (J (map (fun j => [j]) zs)), (pc hit beta alpha inverted 1 x_start zs); cbn in E; try contradiction;
        destruct (fpc rnd hit beta alpha inverted (Fin 0) 1 x_start zs), (pa_cost r); cbn in *; try contradiction; auto.
      rewrite <- E. lra.
  Qed.

  (** Bounds up to four: the first rows are all configurations. *)
  Lemma f_search_1d_small (p : ssco C D) (x_start : Z) (inverted : bool) (alpha beta : Q) (m : Z) :
    s_d p = 1 -> s_bounds p = [m] -> s_switching p = [beta] -> 0 <= s_tend p -> (m = 1 \/ m = 2 \/ m = 4) ->
    (0 <= alpha)%Q -> representable_instance F small alpha p ->
    let J := total_cost (fun t x => c_cost (s_hit p t x)) (switching [beta] inverted) alpha 1 [x_start] in
    let n := s_tend p + 3 in
    (exists ys, feasible_schedule (s_tend p) [m] ys /\ is_fin (J ys)) ->
    exists r,
      f_optimal_graph_search_1d rnd outside p x_start inverted alpha None = Ok r /\
      is_fin (pa_cost r) /\
      let xs := map (fun j => [j]) (pa_xs r) in
      feasible_schedule (s_tend p) [m] xs /\
      up_to_rounding u n (J xs) (pa_cost r) /\
      forall ys, feasible_schedule (s_tend p) [m] ys -> at_most_rounding u n (pa_cost r) (J ys).
  Proof.
    intros Hd Hb Hsw Ht Hm Ha Hrep J n (fs & Hfs & Hfin).
    assert (Hm0 : 0 <= m) by lia.
    assert (Hpow : is_pow_of_2 m = true) by (destruct Hm as [->|[->| ->]]; reflexivity).
    assert (G := f_search_1d_proof p x_start inverted alpha beta m Hd Hb Hsw Ht Hm0 Ha Hrep).
    cbv zeta in G. rewrite Hpow in G. fold n in G.
    assert (HJ : forall ys, feasible_schedule (s_tend p) [m] ys ->
      eeq (total_cost (fun t x => c_cost (ssco_hit_cost outside p t x)) (switching [beta] inverted) alpha 1 [x_start] ys)
          (J ys)).
    { intros ys [_ Hf]. apply total_cost_ext with (P := feasible_config [m]); [|exact Hf].
      intros t x _ Hx. unfold ssco_hit_cost. rewrite Hb.
      replace (within [m] x) with true; [reflexivity|]. symmetry. unfold feasible_config in Hx.
      inversion Hx as [|b z l x' Hz Hr]; subst. inversion Hr; subst. cbn. apply Bool.andb_true_iff; split; [|reflexivity].
      apply Bool.andb_true_iff. lia. }
    assert (Hco : forall ys, feasible_schedule (s_tend p) [m] ys ->
      Z.of_nat (length ys) = s_tend p /\ Forall (fun y => exists e, 0 <= e <= 4 /\ y = [e * m / 4]) ys).
    { intros ys [Hl Hf]. split; [exact Hl|]. eapply Forall_impl; [|exact Hf]. intros y Hy.
      inversion Hy as [|b z l x' Hz Hr]; subst. inversion Hr; subst.
      destruct Hm as [->|[->| ->]].
      - exists (4 * z). split; [lia|]. f_equal. rewrite Z.mul_1_r, Z.mul_comm, Z.div_mul; lia.
      - exists (2 * z). split; [lia|]. f_equal. replace (2 * z * 2) with (z * 4) by ring. rewrite Z.div_mul; lia.
      - exists z. split; [lia|]. f_equal. rewrite Z.div_mul; lia. }
    destruct G as (r & Hr & Hf & Hfeas & Hup & Hmin).
    { exists fs. split; [apply Hco; exact Hfs|]. eapply eeq_fin; [apply HJ; exact Hfs|exact Hfin]. }
    exists r. split; [exact Hr|]. split; [exact Hf|]. split; [exact Hfeas|]. split.
    - eapply up_compat; [apply HJ; exact Hfeas|exact Hup].
    - intros ys Hy. specialize (Hmin ys (Hco ys Hy)). assert (E := HJ ys Hy). clear - Hmin E.
      destruct (total_cost (fun t x => c_cost (ssco_hit_cost outside p t x)) (switching [beta] inverted) alpha 1 [x_start] ys),
        (J ys), (pa_cost r); cbn in *; try contradiction; auto. rewrite <- E. exact Hmin.
  Qed.
End Top.

(** * Without rounding *)
Section Exact.
  Variable hit : Z -> Z -> ext.
  Variable beta alpha : Q.
  Variable inverted : bool.
  Variable x_start : Z.
  Local Notation rid := (fun q : Q => q).

  Definition like (p q : path) : Prop := pa_xs p = pa_xs q /\ eeq (pa_cost p) (pa_cost q).
  Definition alike (ps qs : paths) : Prop := Forall2 (fun a b => fst a = fst b /\ like (snd a) (snd b)) ps qs.

  Definition olike {A} (R : A -> A -> Prop) (a b : outcome A) : Prop :=
    match a, b with
    | Ok x, Ok y => R x y
    | Err e, Err e' => e = e'
    | Panic, Panic => True
    | _, _ => False
    end.

  Lemma obind_olike {A B} (R : A -> A -> Prop) (S : B -> B -> Prop) a b f g :
    olike R a b -> (forall x y, R x y -> olike S (f x) (g y)) -> olike S (obind a f) (obind b g).
  Proof. destruct a, b; cbn; intros H G; auto; contradiction. Qed.

  Lemma lookup_alike ps qs v : alike ps qs -> olike like (from_option (lookup ps v)) (from_option (lookup qs v)).
  Proof.
    induction 1 as [|[k p] [k' q] ps qs [E L] _ IH]; [exact I|]. cbn in E, L. subst k'. cbn [lookup].
    destruct ((fst k =? fst v) && (snd k =? snd v)); [exact L|exact IH].
  Qed.

  Lemma build_id t i j : eeq (f_build_cost rid hit beta alpha inverted t i j) (build_cost hit beta alpha inverted t i j).
  Proof.
    unfold f_build_cost, build_cost. destruct (hit t j); cbn; [|exact I]. ring.
  Qed.

  Lemma fadd_id a b : fadd rid a b = eadd a b.
  Proof. destruct a, b; reflexivity. Qed.

  Lemma eltb_eeq a b c d : eeq a b -> eeq c d -> eltb a c = eltb b d.
  Proof.
    intros H1 H2. destruct (eltb a c) eqn:E1, (eltb b d) eqn:E2; auto; exfalso.
    - apply eltb_iff in E1. apply eltb_false in E2. apply elt_not_ele in E1. apply E1. rewrite H1, H2. exact E2.
    - apply eltb_iff in E2. apply eltb_false in E1. apply elt_not_ele in E2. apply E2. rewrite <- H1, <- H2. exact E1.
  Qed.

  Lemma pick_source_id t to ps qs : alike ps qs -> forall from s a b, eeq a b ->
    olike (fun x y => fst x = fst y /\ eeq (snd x) (snd y))
      (f_pick_source rid hit beta alpha inverted ps t to from (s, a))
      (pick_source hit beta alpha inverted qs t to from (s, b)).
  Proof.
    intros HA. induction from as [|x from IH]; intros s a b E; cbn [f_pick_source pick_source]; [split; auto|].
    eapply obind_olike; [apply lookup_alike; exact HA|]. intros p q [_ L]. cbv zeta. cbn [snd]. rewrite fadd_id.
    assert (G : eeq (eadd (pa_cost p) (f_build_cost rid hit beta alpha inverted t x to))
                    (eadd (pa_cost q) (build_cost hit beta alpha inverted t x to))).
    { apply eadd_proper; [exact L|apply build_id]. }
    rewrite (eltb_eeq _ _ _ _ G E). destruct (eltb _ _); apply IH; auto.
  Qed.

  Lemma subpaths_id t from : forall rows ps qs, alike ps qs ->
    olike alike (f_find_subpaths rid hit beta alpha inverted ps t from rows)
      (find_subpaths hit beta alpha inverted qs t from rows).
  Proof.
    induction rows as [|j rows IH]; intros ps qs HA; cbn [f_find_subpaths find_subpaths]; [exact HA|].
    eapply (obind_olike alike); [|intros x y Hxy; apply IH; exact Hxy].
    unfold f_find_shortest_subpath, find_shortest_subpath. destruct from as [|s0 from]; [exact I|].
    eapply obind_olike; [apply pick_source_id; [exact HA|exact I]|]. intros [x a] [y b] [E1 E2]. cbn in E1, E2. subst y.
    cbn [fst snd]. unfold update_paths. eapply obind_olike; [apply lookup_alike; exact HA|].
    intros p q [L1 L2]. cbn. constructor; [|exact HA]. cbn. split; [reflexivity|]. split; cbn; [rewrite L1; reflexivity|exact E2].
  Qed.

  Lemma layers_id sel : forall ts ps qs rows, alike ps qs ->
    olike (fun x y => alike (fst x) (fst y) /\ snd x = snd y)
      (f_find_layers rid hit beta alpha inverted sel ps rows ts)
      (find_layers hit beta alpha inverted sel qs rows ts).
  Proof.
    induction ts as [|t ts IH]; intros ps qs rows HA; cbn [f_find_layers find_layers]; [split; auto|].
    destruct (sel t) as [rows'| |]; cbn [obind]; [|reflexivity|exact I].
    eapply obind_olike; [apply subpaths_id; exact HA|]. intros x y Hxy. apply IH. exact Hxy.
  Qed.

  Lemma final_id T ps qs : alike ps qs -> forall rows p q, like p q ->
    olike like (pick_final ps T rows p) (pick_final qs T rows q).
  Proof.
    intros HA. induction rows as [|i rows IH]; intros p q L; cbn [pick_final]; [exact L|].
    eapply obind_olike; [apply lookup_alike; exact HA|]. intros x y Hxy.
    rewrite (eltb_eeq _ _ _ _ (proj2 Hxy) (proj2 L)). destruct (eltb _ _); apply IH; auto.
  Qed.

  Lemma schedule_id T sel :
    olike like (f_find_schedule rid hit beta alpha inverted x_start T sel)
      (find_schedule hit beta alpha inverted x_start T sel).
  Proof.
    unfold f_find_schedule, find_schedule. eapply obind_olike.
    - apply layers_id. constructor; [|constructor]. cbn. split; [reflexivity|]. split; reflexivity.
    - intros [x r] [y r'] [H1 H2]. cbn in *. subst r'. apply final_id; [exact H1|]. split; reflexivity.
  Qed.

  Lemma search_pow2_id T m :
    olike like (f_search_pow2 rid hit beta alpha inverted x_start T m)
      (search_pow2 hit beta alpha inverted x_start T m).
  Proof.
    unfold f_search_pow2, search_pow2. eapply obind_olike; [apply schedule_id|].
    generalize (k_init m). intros k. induction k as [|k IH]; intros p q L; cbn [f_refine refine]; [exact L|].
    eapply (obind_olike like); [|intros x y Hxy; apply IH; exact Hxy].
    destruct L as [-> _]. apply schedule_id.
  Qed.
End Exact.

Lemma f_search_1d_id {C D} (outside : D) (p : ssco C D) x_start inverted alpha l :
  match f_optimal_graph_search_1d (fun q => q) outside p x_start inverted alpha l,
        optimal_graph_search_1d outside p x_start inverted alpha l with
  | Ok r, Ok r' => pa_xs r = pa_xs r' /\ eeq (pa_cost r) (pa_cost r')
  | Err e, Err e' => e = e'
  | Panic, Panic => True
  | _, _ => False
  end.
Proof.
  change (olike like (f_optimal_graph_search_1d (fun q => q) outside p x_start inverted alpha l)
            (optimal_graph_search_1d outside p x_start inverted alpha l)).
  unfold f_optimal_graph_search_1d, optimal_graph_search_1d. destruct l; [reflexivity|].
  destruct (negb (s_d p =? 1)); [reflexivity|].
  destruct (s_bounds p) as [|m0 [|]]; try exact I. destruct (s_switching p) as [|b [|]]; try exact I.
  change (@f_make_pow_of_2 (fun q : Q => q) C D) with (@make_pow_of_2 C D). apply search_pow2_id.
Qed.
