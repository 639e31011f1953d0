(** The costs stored by the graph search in floating-point arithmetic are optimal up to rounding. *)
From Verif Require Import NumLemmas GraphSearchModel GraphSearchSpec GraphSearchOrder GraphSearchPick
  GraphSearchWalk GraphSearchCosts GraphSearchDP ObjectiveProofs FloatModel FloatSpec FloatPick FloatWalk FloatProofs.
From Coq Require Import Arith Lqa.
Local Open Scope nat_scope.

Lemma Qmult_comm_eq (x y : Q) : (x * y)%Q = (y * x)%Q.
Proof. destruct x, y. unfold Qmult. cbn. f_equal; [lia|apply Pos.mul_comm]. Qed.

Lemma list_sum_dec a : forall l, 0 < nth l a 0 -> list_sum a = S (list_sum (dec a l)).
Proof.
  unfold dec, list_sum. induction a as [|x a IH]; intros [|l] H; cbn in *; try lia.
  rewrite (IH l H). lia.
Qed.

Lemma list_sum_box b a : box b a -> list_sum a <= list_sum b.
Proof. unfold list_sum. intros H. induction H; cbn in *; lia. Qed.

Lemma f_find_optimal_spec rnd s preds ps :
  (forall e, In e preds -> exists p, glookup ps (e_from e) = Some p) ->
  (exists e, In e preds /\ is_fin (f_cand_cost rnd (e, look ps e))) ->
  exists e, In e preds /\ f_find_optimal_predecessor rnd s preds ps = Ok (Some (e, look ps e)) /\
    is_fin (f_cand_cost rnd (e, look ps e)) /\
    forall e', In e' preds -> ele (f_cand_cost rnd (e, look ps e)) (f_cand_cost rnd (e', look ps e')).
Proof.
  intros Hl (e0 & Hin & Hf). unfold f_find_optimal_predecessor.
  assert (E : existsb (fun e => is_finb (e_cost e)) preds = true).
  { apply existsb_exists. exists e0. split; auto. unfold f_cand_cost in Hf. cbn [fst snd] in Hf.
    destruct (gp_cost (look ps e0)); cbn in Hf; [|contradiction].
    destruct (e_cost e0); [reflexivity|contradiction]. }
  rewrite E. replace (match preds with [] => true | _ => true end) with true by (destruct preds; auto).
  rewrite omap_look by auto. cbn [obind].
  assert (H := f_par_pick_spec rnd s (map (fun e => (e, look ps e)) preds)).
  destruct (f_par_pick rnd s _) as [c|].
  - apply first_least_spec in H. destruct H as (H1 & H2 & H3).
    apply in_map_iff in H1. destruct H1 as (e & <- & He). exists e. repeat split; auto.
    intros e' He'. rewrite Forall_forall in H3. apply H3. apply in_map_iff. eauto.
  - exfalso. rewrite Forall_forall in H.
    rewrite (H (e0, look ps e0)) in Hf; [contradiction|]. apply in_map_iff. eauto.
Qed.

Section FloatDP.
  Variable rnd : Q -> Q.
  Variable F : Q -> Prop.
  Variables u small : Q.
  Hypothesis R : rounds rnd F u small.
  Variable hit : Z -> list Z -> ext.
  Variable d : Z.
  Variable bounds : list Z.
  Variable beta : list Q.
  Variable alpha : Q.
  Variable inverted : bool.
  Variable vs : gvalues.
  Variable sched : Z -> vertice -> ProblemModel.split.
  Let b := v_bound vs.
  Let dn := length b.
  Notation val := (val vs).
  Notation cfgof := (cfgof vs).
  Notation emb := (emb vs).
  Notation mkv := (mkv vs).
  Hypothesis d_dn : d = Z.of_nat dn.
  Hypothesis dn_pos : 0 < dn.
  Hypothesis b_in : forall k, nth k b 0 < length (v_values vs).
  Hypothesis b_pos : forall k, 1 <= k -> k < dn -> 1 <= nth k b 0.
  Hypothesis bounds_val : bounds = map val b.
  Hypothesis val_0 : val 0 = 0%Z.
  Hypothesis val_mono : forall i j, i <= j -> (val i <= val j)%Z.
  Hypothesis val_strict : forall i j, i < j -> j < length (v_values vs) -> (val i < val j)%Z.
  Hypothesis beta_len : length beta = dn.
  Hypothesis beta_fine : Forall (fun q => F q /\ no_underflow small q /\ no_underflow small (alpha * q))%Q beta.
  Hypothesis alpha_nonneg : (0 <= alpha)%Q.
  Hypothesis hit_F : forall t x, match hit t x with Fin q => F q | Inf => True end.

  Let u0 : (0 <= u)%Q := proj1 (r_unit _ _ _ _ R).
  Let u1 : (u < 1)%Q := proj2 (r_unit _ _ _ _ R).

  Lemma beta_nonneg : Forall (fun q => 0 <= q)%Q beta.
  Proof.
    eapply Forall_impl; [|exact beta_fine]. intros q (H & _). apply (r_nonneg _ _ _ _ R); auto.
  Qed.

  Notation hconfig := (f_handle_config rnd hit d beta alpha inverted vs sched).
  Notation gbox := (box b).
  Notation ncost := (ncost beta alpha inverted vs).
  Notation pot := (pot beta alpha inverted vs).
  Notation gridc := (gridc vs).
  Notation grid := (Forall gridc).
  Notation K := (total_cost hit (power_up beta) alpha 1 (repeat 0%Z (length (v_bound vs)))).
  Notation pu := (power_up beta).
  Notation lastz := (fun xs => last xs (repeat 0%Z (length (v_bound vs)))).
  Notation above := (above vs).

  (** ** Edges *)
  Definition pays (up : bool) : bool := (up && negb inverted) || (negb up && inverted).

  Definition f_ncost (up : bool) (a : list nat) (l : nat) : Q :=
    if pays up then
      rnd (rnd (alpha * nth l beta 0%Q) * scalar_movement inject_Z
         (val (nth l (emb up a) 0%nat)) (val (nth l (emb up (dec a l)) 0%nat)) inverted)
    else 0%Q.

  Definition f_nedge (up : bool) (a : list nat) (l : nat) : list edge :=
    if Nat.eqb (nth l a 0) 0 then []
    else [mkEdge (cfgof up (dec a l), up) (Fin (f_ncost up a l))].

  Lemma f_neighbour_edges_eq up a : gbox a -> forall ls, (forall l, In l ls -> l < dn) ->
    f_neighbour_edges rnd beta alpha inverted vs up (cfgof up a) ls = Ok (flat_map (f_nedge up a) ls).
  Proof.
    intros Ha. induction ls as [|l ls IH]; intros Hls; cbn [f_neighbour_edges flat_map]; auto.
    rewrite build_backward by (auto; apply Hls; left; auto). cbn [obind].
    rewrite IH by (intros; apply Hls; right; auto). cbn [obind].
    assert (Hl : l < dn) by (apply Hls; left; auto).
    unfold f_nedge. destruct (Nat.eqb_spec (nth l a 0) 0) as [E|E]; [reflexivity|].
    unfold f_ncost, pays. destruct ((up && negb inverted) || (negb up && inverted)); [|reflexivity].
    assert (H1 := box_length _ _ (emb_box vs up a Ha)).
    assert (H2 := box_length _ _ (emb_box vs up (dec a l) (box_dec _ _ l Ha))).
    fold b in H1, H2. fold dn in H1, H2.
    rewrite (nth_error_nth_lt beta l 0%Q) by lia. cbn [from_option obind].
    unfold GraphSearchWalk.cfgof, GraphSearchWalk.mkv. cbn [ic_cfg].
    rewrite !(nth_error_map_val beta vs dn_pos beta_len) by lia. cbn [from_option obind app]. reflexivity.
  Qed.

  Lemma In_f_nedges e up a k : In e (flat_map (f_nedge up a) (seq 0 k)) <->
    exists l, l < k /\ 0 < nth l a 0 /\ e = mkEdge (cfgof up (dec a l), up) (Fin (f_ncost up a l)).
  Proof.
    rewrite in_flat_map. split.
    - intros (l & Hl & He). apply in_seq in Hl. unfold f_nedge in He.
      destruct (Nat.eqb_spec (nth l a 0) 0) as [E|E]; [contradiction|].
      destruct He as [<-|[]]. exists l. repeat split; try lia.
    - intros (l & Hl & Hp & ->). exists l. split; [apply in_seq; lia|]. unfold f_nedge.
      rewrite (proj2 (Nat.eqb_neq _ _)) by lia. left. reflexivity.
  Qed.

  Lemma ncost_unpaid up a l : pays up = false -> ncost up a l = 0%Q /\ f_ncost up a l = 0%Q.
  Proof. unfold pays, GraphSearchDP.ncost, f_ncost, pays. intros ->. auto. Qed.

  Notation near := (near F u).

  Lemma ncost_near up a l : l < dn -> near 2 (ncost up a l) (f_ncost up a l).
  Proof.
    intros Hl. unfold GraphSearchDP.ncost, f_ncost, pays.
    destruct ((up && negb inverted) || (negb up && inverted)).
    2:{ apply (near_exact rnd F u small R); [apply (r_zero _ _ _ _ R)|reflexivity]. }
    assert (Hb : In (nth l beta 0%Q) beta) by (apply nth_In; lia).
    rewrite Forall_forall in beta_fine. destruct (beta_fine _ Hb) as (B1 & B2 & B3).
    set (q := nth l beta 0%Q) in *.
    destruct (scalar_movement_Z (val (nth l (emb up a) 0)) (val (nth l (emb up (dec a l)) 0)) inverted) as (z & Hz & E).
    set (m := scalar_movement _ _ _ _) in *.
    assert (N1 : near 1 (alpha * q) (rnd (alpha * q))).
    { apply (near_mul rnd F u small R 0); auto. apply (near_exact rnd F u small R); [auto|reflexivity]. }
    assert (Hm : (0 <= m)%Q) by (rewrite E; change 0%Q with (inject_Z 0); rewrite <- Zle_Qle; auto).
    assert (N2 : near 2 (m * (alpha * q)) (rnd (m * rnd (alpha * q)))).
    { apply (near_mul rnd F u small R 1); auto.
      destruct (Z.eq_dec z 0) as [->|Hne].
      - left. rewrite E. change (inject_Z 0) with 0%Q. ring.
      - assert (1 <= m)%Q by (rewrite E; change 1%Q with (inject_Z 1); rewrite <- Zle_Qle; lia).
        destruct B3 as [B3|B3].
        + left. destruct N1 as (_ & _ & _ & N1). rewrite B3 in N1 at 2. rewrite Qmult_0_r in N1.
          assert (G : (0 <= rnd (alpha * q))%Q).
          { apply (r_nonneg _ _ _ _ R). apply (r_in _ _ _ _ R). rewrite B3. lra. }
          assert (E0 : (rnd (alpha * q) == 0)%Q) by lra. rewrite E0. ring.
        + right. assert (G : (small <= rnd (alpha * q))%Q).
          { rewrite <- (r_keeps _ _ _ _ R small (r_small_in _ _ _ _ R)) at 1.
            apply (r_mono _ _ _ _ R); auto. assert (X := r_small _ _ _ _ R). lra. }
          assert (X := r_small _ _ _ _ R). nra. }
    rewrite (Qmult_comm_eq (rnd (alpha * q)) m).
    apply (near_compat F u 2 (m * (alpha * q))); [ring|exact N2].
  Qed.

  Lemma ncost_nonneg up a l : l < dn -> (0 <= ncost up a l)%Q.
  Proof. intros H. apply (ncost_near up a l H). Qed.

  Definition paid (up : bool) : nat := if pays up then 1 else 0.

  Lemma edge_F up a l q : l < dn -> F q -> F (rnd (q + f_ncost up a l)).
  Proof.
    intros Hl Hq. apply (r_in _ _ _ _ R). destruct (ncost_near up a l Hl) as (_ & H & _).
    assert (A := r_nonneg _ _ _ _ R _ H). assert (B := r_nonneg _ _ _ _ R _ Hq). lra.
  Qed.

  Lemma rnd_zero q : F q -> (rnd (q + 0) == q)%Q.
  Proof.
    intros Hq. assert (B := r_nonneg _ _ _ _ R _ Hq).
    rewrite (rnd_compat rnd F u small R (q + 0) q) by lra. apply (r_keeps _ _ _ _ R); auto.
  Qed.

  Lemma add_lower n x q c c' : 0 <= n -> (0 <= x)%Q -> F q -> near n c c' -> (pw (1 - u) n * x <= q)%Q ->
    (pw (1 - u) (S n) * (x + c) <= rnd (q + c'))%Q.
  Proof.
    intros Hn Hx HF (C0 & CF & C1 & C2) H. destruct (r_sum _ _ _ _ R q c' HF CF) as [S1 _].
    apply Qle_trans with ((1 - u) * (q + c'))%Q; auto. cbn [pw].
    rewrite <- Qmult_assoc. rewrite !(Qmult_comm (1 - u)). apply Qmult_le_compat_r; lra.
  Qed.

  Lemma add_upper n x q c c' : 0 <= n -> (0 <= x)%Q -> F q -> near n c c' -> (q <= pw (1 + u) n * x)%Q ->
    (rnd (q + c') <= pw (1 + u) (S n) * (x + c))%Q.
  Proof.
    intros Hn Hx HF (C0 & CF & C1 & C2) H. destruct (r_sum _ _ _ _ R q c' HF CF) as [_ S1].
    apply Qle_trans with ((1 + u) * (q + c'))%Q; auto. cbn [pw].
    rewrite <- Qmult_assoc. rewrite !(Qmult_comm (1 + u)). apply Qmult_le_compat_r; lra.
  Qed.

  Lemma edge_lower up a l n x q : l < dn -> 2 <= n -> (0 <= x)%Q -> F q -> (pw (1 - u) n * x <= q)%Q ->
    (pw (1 - u) (n + paid up) * (x + ncost up a l) <= rnd (q + f_ncost up a l))%Q.
  Proof.
    intros Hl Hn Hx HF H. unfold paid. destruct (pays up) eqn:E.
    - rewrite Nat.add_1_r. apply add_lower; auto; [lia|].
      apply (near_mono rnd F u small R 2); auto. apply ncost_near; auto.
    - destruct (ncost_unpaid up a l E) as [-> ->]. rewrite rnd_zero by auto. rewrite Nat.add_0_r, Qplus_0_r. exact H.
  Qed.

  Lemma edge_upper up a l n x q : l < dn -> 2 <= n -> (0 <= x)%Q -> F q -> (q <= pw (1 + u) n * x)%Q ->
    (rnd (q + f_ncost up a l) <= pw (1 + u) (n + paid up) * (x + ncost up a l))%Q.
  Proof.
    intros Hl Hn Hx HF H. unfold paid. destruct (pays up) eqn:E.
    - rewrite Nat.add_1_r. apply add_upper; auto; [lia|].
      apply (near_mono rnd F u small R 2); auto. apply ncost_near; auto.
    - destruct (ncost_unpaid up a l E) as [-> ->]. rewrite rnd_zero by auto. rewrite Nat.add_0_r, Qplus_0_r. exact H.
  Qed.

  Lemma lower_mono n m x q : n <= m -> (0 <= x)%Q -> (pw (1 - u) n * x <= q)%Q -> (pw (1 - u) m * x <= q)%Q.
  Proof.
    intros H Hx Hq. apply Qle_trans with (pw (1 - u) n * x)%Q; auto.
    apply Qmult_le_compat_r; auto. apply pw_down; auto; lra.
  Qed.

  Lemma upper_mono n m x q : n <= m -> (0 <= x)%Q -> (q <= pw (1 + u) n * x)%Q -> (q <= pw (1 + u) m * x)%Q.
  Proof.
    intros H Hx Hq. apply Qle_trans with (pw (1 + u) n * x)%Q; auto.
    apply Qmult_le_compat_r; auto. apply pw_up; auto; lra.
  Qed.

  (** ** Costs along paths are not negative *)
  Lemma weighted_triangle bt : Forall (fun q => 0 <= q)%Q bt -> forall v w : list nat, length v = length w ->
    (weighted bt (map val v) <= weighted bt (map val w) + power_up bt (map val w) (map val v))%Q.
  Proof.
    intros H. induction H as [|q bt Hq H IH]; intros [|x v] [|y w] Hl; cbn in *; try discriminate; try lra.
    specialize (IH v w ltac:(lia)).
    assert (X : (inject_Z (val x) <= inject_Z (val y) + inject_Z (Z.max 0 (val x - val y)))%Q).
    { rewrite <- inject_Z_plus, <- Zle_Qle. lia. }
    assert (q * inject_Z (val x) <= q * (inject_Z (val y) + inject_Z (Z.max 0 (val x - val y))))%Q.
    { rewrite !(Qmult_comm q). apply Qmult_le_compat_r; auto. }
    rewrite Qmult_plus_distr_r in H0. lra.
  Qed.

  Lemma weighted_nonneg bt : Forall (fun q => 0 <= q)%Q bt -> forall v : list nat, (0 <= weighted bt (map val v))%Q.
  Proof.
    intros H. induction H as [|q bt Hq H IH]; intros [|x v]; cbn; try lra.
    assert (0 <= inject_Z (val x))%Q.
    { change 0%Q with (inject_Z 0). rewrite <- Zle_Qle. rewrite <- val_0. apply val_mono. lia. }
    assert (Y := IH v). assert (0 <= q * inject_Z (val x))%Q by (apply Qmult_le_0_compat; auto). lra.
  Qed.

  (** What a schedule leading to [w] has paid covers [pot w]. *)
  Lemma K_covers xs : grid xs -> forall ky w, K xs = Fin ky -> gbox w -> lastz xs = map val w ->
    (alpha * weighted beta (map val w) <= ky)%Q /\ (0 <= ky)%Q.
  Proof.
    induction xs as [|x xs IH] using rev_ind; intros Hg ky w Hk Hw Ew.
    - cbn [last] in Ew. cbn [total_cost] in Hk. inversion Hk; subst. rewrite <- Ew.
      rewrite weighted_zero. split; lra.
    - apply Forall_app in Hg. destruct Hg as [Hg _].
      assert (E := total_cost_snoc hit pu alpha xs 1 (repeat 0%Z (length (v_bound vs))) x).
      rewrite Hk in E. cbv beta in Ew. rewrite last_last in Ew. subst x.
      destruct (K xs) as [kx|] eqn:Ek; [|contradiction].
      specialize (hit_F (1 + Z.of_nat (length xs))%Z (map val w)).
      destruct (hit (1 + Z.of_nat (length xs))%Z (map val w)) as [h|]; [|contradiction].
      cbn [eadd eeq] in E. apply (r_nonneg _ _ _ _ R) in hit_F.
      destruct (grid_last beta vs dn_pos val_0 beta_len xs Hg) as (w' & Hw' & Ew').
      destruct (IH Hg kx w' eq_refl Hw' Ew') as [H1 H2].
      cbv beta in Ew'. rewrite Ew' in E.
      assert (T := weighted_triangle beta beta_nonneg w w').
      rewrite (box_length _ _ Hw), (box_length _ _ Hw') in T. specialize (T eq_refl).
      assert (T' : (alpha * weighted beta (map val w)
                 <= alpha * (weighted beta (map val w') + pu (map val w') (map val w)))%Q).
      { rewrite !(Qmult_comm alpha). apply Qmult_le_compat_r; auto. }
      rewrite Qmult_plus_distr_r in T'.
      assert (0 <= alpha * pu (map val w') (map val w))%Q.
      { apply Qmult_le_0_compat; auto. apply P_nonneg. apply beta_nonneg. }
      split; lra.
  Qed.

  Lemma up_nonneg xs ky v : grid xs -> K xs = Fin ky -> gbox v ->
    (0 <= ky + alpha * pu (lastz xs) (map val v) - pot v)%Q.
  Proof.
    intros Hg Hk Hv. destruct (grid_last beta vs dn_pos val_0 beta_len xs Hg) as (w & Hw & Ew).
    destruct (K_covers xs Hg ky w Hk Hw Ew) as [H1 H2]. cbv beta in *. rewrite Ew.
    assert (P : (0 <= alpha * pu (map val w) (map val v))%Q).
    { apply Qmult_le_0_compat; auto. apply P_nonneg. apply beta_nonneg. }
    unfold GraphSearchDP.pot. destruct inverted; [|lra].
    assert (T := weighted_triangle beta beta_nonneg v w).
    rewrite (box_length _ _ Hw), (box_length _ _ Hv) in T. specialize (T eq_refl).
    assert (T' : (alpha * weighted beta (map val v)
               <= alpha * (weighted beta (map val w) + pu (map val w) (map val v)))%Q).
    { rewrite !(Qmult_comm alpha). apply Qmult_le_compat_r; auto. }
    rewrite Qmult_plus_distr_r in T'. lra.
  Qed.

  Lemma weighted_le bt : Forall (fun q => 0 <= q)%Q bt -> forall v w : list nat, Forall2 le v w ->
    (weighted bt (map val v) <= weighted bt (map val w))%Q.
  Proof.
    intros H. induction H as [|q bt Hq H IH]; intros v w Hl; inversion Hl as [|x y v' w' Hxy Hl']; subst; cbn; try lra.
    specialize (IH _ _ Hl').
    assert (X : (inject_Z (val x) <= inject_Z (val y))%Q) by (rewrite <- Zle_Qle; apply val_mono; auto).
    assert (q * inject_Z (val x) <= q * inject_Z (val y))%Q.
    { rewrite !(Qmult_comm q). apply Qmult_le_compat_r; auto. }
    lra.
  Qed.

  Lemma dn_nonneg xs ky v : grid xs -> K xs = Fin ky -> above v xs -> (0 <= ky - pot v)%Q.
  Proof.
    intros Hg Hk (w & Hw & Ew & Hle). destruct (K_covers xs Hg ky w Hk Hw Ew) as [H1 H2].
    unfold GraphSearchDP.pot. destruct inverted; [|lra].
    assert (T := weighted_le beta beta_nonneg v w Hle).
    assert (T' : (alpha * weighted beta (map val v) <= alpha * weighted beta (map val w))%Q).
    { rewrite !(Qmult_comm alpha). apply Qmult_le_compat_r; auto. }
    lra.
  Qed.

  (** ** Invariants *)
  Definition Ssum : nat := list_sum b.
  Definition extra : nat := if inverted then Ssum else 0.
  Definition n_up (t : Z) (v : list nat) : nat := 2 + Z.to_nat (t - 1) * (1 + Ssum + extra) + list_sum v.
  Definition n_dn (t : Z) (v : list nat) : nat :=
    2 + Z.to_nat (t - 1) * (1 + Ssum + extra) + Ssum + 1 + (if inverted then Ssum - list_sum v else 0).

  Lemma n_dn_ge2 t v : 2 <= n_dn t v.
  Proof.
    unfold n_dn. generalize (Z.to_nat (t - 1) * (1 + Ssum + extra)). intros m. destruct inverted; lia.
  Qed.

  Definition FUp (t : Z) (v : list nat) (p : gpath) : Prop :=
    exists q kx, gp_cost p = Fin q /\ F q /\ Z.of_nat (length (gp_xs p)) = (t - 1)%Z /\ grid (gp_xs p) /\
      K (gp_xs p) = Fin kx /\
      (pw (1 - u) (n_up t v) * (kx + alpha * pu (lastz (gp_xs p)) (map val v) - pot v) <= q)%Q /\
      forall ys ky, grid ys -> Z.of_nat (length ys) = (t - 1)%Z -> K ys = Fin ky ->
        (q <= pw (1 + u) (n_up t v) * (ky + alpha * pu (lastz ys) (map val v) - pot v))%Q.

  Definition FDn (t : Z) (v : list nat) (p : gpath) : Prop :=
    exists q kx, gp_cost p = Fin q /\ F q /\ Z.of_nat (length (gp_xs p)) = t /\ grid (gp_xs p) /\
      above v (gp_xs p) /\ K (gp_xs p) = Fin kx /\
      (pw (1 - u) (n_dn t v) * (kx - pot v) <= q)%Q /\
      forall ys ky, grid ys -> Z.of_nat (length ys) = t -> above v ys -> K ys = Fin ky ->
        (q <= pw (1 + u) (n_dn t v) * (ky - pot v))%Q.

  Definition FInvUp (t : Z) (ps : gpaths) (S : list (list nat)) : Prop :=
    ((1 < t)%Z -> forall v, gbox v -> stored ps (mkv v, false) (FDn (t - 1) v)) /\
    forall a, In a S -> stored ps (cfgof true a, true) (FUp t (emb true a)).

  Definition FInvDn (t : Z) (ps : gpaths) (S : list (list nat)) : Prop :=
    (forall v, gbox v -> stored ps (mkv v, true) (FUp t v)) /\
    forall a, In a S -> stored ps (cfgof false a, false) (FDn t (emb false a)).

  Lemma FInvUp_insert t ps S a p : FUp t (emb true a) p -> FInvUp t ps S ->
    FInvUp t (ginsert ps (cfgof true a, true) p) (a :: S).
  Proof.
    intros HG [H1 H2]. split.
    - intros Ht v Hv. apply stored_insert_other; auto. intros E; inversion E.
    - intros c [<-|Hc]; [apply stored_insert_same; auto|].
      destruct (vertice_eqb (cfgof true a, true) (cfgof true c, true)) eqn:E.
      + apply vertice_eqb_spec in E. rewrite <- E.
        assert (E' : emb true a = emb true c) by (apply cfgof_inj; congruence).
        rewrite <- E'. apply stored_insert_same; auto.
      + apply stored_insert_other; auto. intros E'. apply vertice_eqb_spec in E'. congruence.
  Qed.

  Lemma FInvDn_insert t ps S a p : FDn t (emb false a) p -> FInvDn t ps S ->
    FInvDn t (ginsert ps (cfgof false a, false) p) (a :: S).
  Proof.
    intros HG [H1 H2]. split.
    - intros v Hv. apply stored_insert_other; auto. intros E; inversion E.
    - intros c [<-|Hc]; [apply stored_insert_same; auto|].
      destruct (vertice_eqb (cfgof false a, false) (cfgof false c, false)) eqn:E.
      + apply vertice_eqb_spec in E. rewrite <- E.
        assert (E' : emb false a = emb false c) by (apply cfgof_inj; congruence).
        rewrite <- E'. apply stored_insert_same; auto.
      + apply stored_insert_other; auto. intros E'. apply vertice_eqb_spec in E'. congruence.
  Qed.

  (** Generic part of handling one vertex that has predecessors. *)
  Lemma f_handle_config_spec t k up a ps (S : list (list nat)) (G : list nat -> gpath -> Prop) :
    1 <= k <= dn -> gbox a -> (forall l, k <= l -> nth l a 0 = 0) ->
    (forall l, 0 < nth l a 0 -> In (dec a l) S) ->
    (forall c, In c S -> stored ps (cfgof up c, up) (G (emb up c))) ->
    let inaction := mkEdge (cfgof up a, negb up) (if up then Fin 0 else hit t (map val (emb up a))) in
    let preds := flat_map (f_nedge up a) (seq 0 k)
                 ++ (if (1 <? t)%Z || negb up then [inaction] else []) in
    ((1 <? t)%Z || negb up = true -> exists p, glookup ps (cfgof up a, negb up) = Some p) ->
    (exists e, In e preds /\ is_fin (f_cand_cost rnd (e, look ps e))) ->
    exists e, In e preds /\
      hconfig t k up (cfgof up a) ps = Ok (f_gupdate_paths rnd ps (Some (e, look ps e)) (cfgof up a, up)) /\
      is_fin (f_cand_cost rnd (e, look ps e)) /\
      forall e', In e' preds -> ele (f_cand_cost rnd (e, look ps e)) (f_cand_cost rnd (e', look ps e')).
  Proof.
    intros Hk Ha Hz HS Hst inaction preds Hin Hfin.
    destruct (f_find_optimal_spec rnd (sched t (cfgof up a, up)) preds ps) as (e & He1 & He2 & He3 & He4).
    - intros e He. apply in_app_or in He. destruct He as [He|He].
      + apply In_f_nedges in He. destruct He as (l & Hl & Hp & ->). cbn [e_from].
        destruct (Hst (dec a l) (HS l Hp)) as (p & Hp' & _). eauto.
      + destruct ((1 <? t)%Z || negb up) eqn:E; [|contradiction].
        destruct He as [<-|[]]. cbn [e_from inaction]. apply Hin. auto.
    - exact Hfin.
    - exists e. split; auto. split; auto.
      unfold f_handle_config, f_find_immediate_predecessors.
      rewrite f_neighbour_edges_eq; auto.
      2:{ intros l Hl. apply in_seq in Hl. lia. }
      cbn [obind].
      assert (Ep : (if (1 <? t)%Z || negb up
                    then flat_map (f_nedge up a) (seq 0 k) ++
                         [mkEdge (cfgof up a, negb up) (if up then Fin 0 else hit t (ic_cfg (cfgof up a)))]
                    else flat_map (f_nedge up a) (seq 0 k)) = preds).
      { unfold preds, inaction. destruct ((1 <? t)%Z || negb up); [reflexivity|]. rewrite app_nil_r. reflexivity. }
      rewrite Ep.
      assert (Em : preds <> []) by (intros E; rewrite E in He1; contradiction).
      destruct ((t =? 1)%Z && up && _); [|destruct preds; [contradiction|]]; cbn [obind]; rewrite He2; reflexivity.
  Qed.

  Lemma F_init : FUp 1 (repeat 0 dn) (mkGP [] (Fin 0)).
  Proof.
    exists 0%Q, 0%Q. cbn [gp_cost gp_xs length]. split; [reflexivity|]. split; [apply (r_zero _ _ _ _ R)|].
    split; [reflexivity|]. split; [constructor|]. split; [reflexivity|].
    assert (E : (pu (repeat 0%Z (length (v_bound vs))) (map val (repeat 0%nat dn)) == 0)%Q).
    { rewrite <- (map_val_zero vs val_0). apply P_ge; auto. fold b. fold dn. clear. induction dn; cbn; constructor; auto. }
    assert (Ep : (pot (repeat 0%nat dn) == 0)%Q).
    { unfold GraphSearchDP.pot. rewrite (map_val_zero vs val_0). destruct inverted; [|reflexivity]. rewrite weighted_zero. ring. }
    split.
    - cbn [last]. rewrite E, Ep. lra.
    - intros ys ky _ Hy Hk. destruct ys; [|cbn in Hy; lia]. cbn [total_cost] in Hk. inversion Hk; subst.
      cbn [last]. rewrite E, Ep. lra.
  Qed.

  Lemma f_up_step_pred t : (1 <= t)%Z -> forall k S a ps, 1 <= k <= dn -> gbox a ->
    (forall l, k <= l -> nth l a 0 = 0) ->
    (forall l, 0 < nth l a 0 -> In (dec a l) S) ->
    ((1 < t)%Z \/ exists l, 0 < nth l a 0) ->
    FInvUp t ps S ->
    exists ps', hconfig t k true (cfgof true a) ps = Ok ps' /\ FInvUp t ps' (a :: S).
  Proof.
    intros Ht k S a ps Hk Ha Hz HS Hsrc HI.
    assert (Hlen := box_length _ _ Ha). fold dn in Hlen.
    destruct HI as [HI1 HI2].
    destruct (f_handle_config_spec t k true a ps S (FUp t)) as (e & He1 & He2 & He3 & He4); auto.
    { cbn [negb]. rewrite orb_false_r. intros E. destruct (HI1 ltac:(lia) a Ha) as (p & Hp & _).
      exists p. exact Hp. }
    { destruct Hsrc as [Hsrc|(l & Hl)].
      - destruct (HI1 Hsrc a Ha) as (p & Hp & q & kx & Hq & _).
        eexists. split; [apply in_or_app; right|].
        + cbn [negb]. rewrite orb_false_r. rewrite (proj2 (Z.ltb_lt _ _)) by lia. left. reflexivity.
        + cbn [negb]. rewrite (look_stored _ _ _ p Hp). unfold f_cand_cost. cbn [fst snd e_cost].
          rewrite Hq. exact I.
      - destruct (HI2 _ (HS l Hl)) as (p & Hp & q & kx & Hq & _).
        exists (mkEdge (cfgof true (dec a l), true) (Fin (f_ncost true a l))). split; [apply in_or_app; left|].
        + apply In_f_nedges. exists l. repeat split; auto.
          destruct (lt_dec l k); auto. rewrite Hz in Hl by lia. lia.
        + rewrite (look_stored _ _ _ p Hp). unfold f_cand_cost. cbn [fst snd e_cost]. rewrite Hq. exact I. }
    rewrite He2. eexists. split; [reflexivity|]. unfold f_gupdate_paths.
    apply FInvUp_insert; [|split; auto]. change (emb true a) with a.
    assert (Hnd : forall v, gbox v -> (1 < t)%Z -> n_dn (t - 1) v <= n_up t v).
    { intros v Hv Ht1. unfold n_dn, n_up, extra. replace (Z.to_nat (t - 1)) with (Datatypes.S (Z.to_nat (t - 1 - 1))) by lia.
      destruct inverted; nia. }
    assert (Hns : forall l, 0 < nth l a 0 -> n_up t (dec a l) + paid true <= n_up t a).
    { intros l Hl. unfold n_up. rewrite (list_sum_dec a l Hl). unfold paid. destruct (pays true); lia. }
    (* upper bound of the chosen candidate *)
    assert (Hmin : forall q0, gp_cost (look ps e) = Fin q0 -> forall qe, e_cost e = Fin qe ->
      forall ys ky, grid ys -> Z.of_nat (length ys) = (t - 1)%Z -> K ys = Fin ky ->
        (rnd (q0 + qe) <= pw (1 + u) (n_up t a) * (ky + alpha * pu (lastz ys) (map val a) - pot a))%Q).
    { intros q0 Hq0 qe Hqe ys ky Hgy Hly Hky.
      assert (Hnn := up_nonneg ys ky a Hgy Hky Ha).
      destruct (grid_last beta vs dn_pos val_0 beta_len ys Hgy) as (w & Hw & Ew). cbv beta in Ew.
      assert (Hwl := box_length _ _ Hw). fold b in Hwl. fold dn in Hwl.
      destruct (Forall2_le_dec a w ltac:(lia)) as [Hle|(l & Hl & Hlt)].
      - (* stay *)
        assert (Ht1 : (1 < t)%Z).
        { destruct (Z.eq_dec t 1) as [->|Hne]; [|lia]. exfalso.
          destruct Hsrc as [Hsrc|(l & Hl)]; [lia|].
          destruct ys; [|cbn in Hly; lia]. cbn [last] in Ew.
          apply (Forall2_le_nth' _ _ l) in Hle.
          assert (Hv : val (nth l w 0) = 0%Z).
          { assert (Hlw : l < dn) by (apply (nth_pos_lt beta vs dn_pos beta_len a); auto).
            assert (X := nth_error_map_val beta vs dn_pos beta_len w l ltac:(lia)). rewrite <- Ew in X.
            assert (Y : nth_error (repeat 0%Z (length (v_bound vs))) l = Some 0%Z).
            { fold b. fold dn. clear - Hlw. revert l Hlw. induction dn as [|n IH]; intros [|l] H; cbn; try lia; auto.
              apply IH. lia. }
            congruence. }
          assert (H0 : (val 0%nat < val (nth l w 0%nat))%Z)
            by (apply val_strict; [lia|apply (box_bound beta vs dn_pos b_in beta_len w); auto]).
          rewrite val_0 in H0. lia. }
        destruct (HI1 Ht1 a Ha) as (p & Hp & q & kx & Hq & HFq & _ & _ & _ & _ & _ & Hopt).
        assert (Hab : above a ys) by (exists w; auto).
        specialize (Hopt ys ky Hgy Hly Hab Hky).
        assert (Hnd0 := dn_nonneg ys ky a Hgy Hky Hab).
        assert (Hc : ele (Fin (rnd (q0 + qe))) (Fin (rnd (q + 0)))).
        { specialize (He4 (mkEdge (cfgof true a, negb true) (Fin 0))).
          unfold f_cand_cost in He4. cbn [fst snd e_cost] in He4.
          rewrite Hq0, Hqe, (look_stored _ _ _ p Hp), Hq in He4. apply He4.
          apply in_or_app; right. cbn [negb]. rewrite orb_false_r.
          rewrite (proj2 (Z.ltb_lt _ _)) by lia. left. reflexivity. }
        cbn [ele] in Hc. rewrite (rnd_zero q HFq) in Hc.
        apply (upper_mono _ (n_up t a)) in Hopt; auto.
        assert (HP := P_ge val val_mono beta w a Hle). cbv beta. rewrite Ew, HP.
        apply Qle_trans with q; auto. apply Qle_trans with (1 := Hopt).
        apply Qle_lteq. right. ring.
      - (* through the neighbour in dimension l *)
        assert (Hp0 : 0 < nth l a 0) by lia.
        destruct (HI2 _ (HS l Hp0)) as (p & Hp & q & kx & Hq & HFq & _ & _ & _ & _ & Hopt).
        change (emb true (dec a l)) with (dec a l) in *.
        specialize (Hopt ys ky Hgy Hly Hky).
        assert (Hnn' := up_nonneg ys ky (dec a l) Hgy Hky (box_dec _ _ l Ha)).
        assert (Hc : ele (Fin (rnd (q0 + qe))) (Fin (rnd (q + f_ncost true a l)))).
        { specialize (He4 (mkEdge (cfgof true (dec a l), true) (Fin (f_ncost true a l)))).
          unfold f_cand_cost in He4. cbn [fst snd e_cost] in He4.
          rewrite Hq0, Hqe, (look_stored _ _ _ p Hp), Hq in He4. apply He4.
          apply in_or_app; left. apply In_f_nedges. exists l. repeat split; auto.
          destruct (lt_dec l k); auto. rewrite Hz in Hp0 by lia. lia. }
        assert (Hadj := ncost_adjusted beta alpha inverted vs dn_pos val_mono beta_len true a l Ha ltac:(fold b; fold dn; lia) Hp0).
        change (emb true a) with a in Hadj. change (emb true (dec a l)) with (dec a l) in Hadj. cbv iota in Hadj.
        assert (Hpe := P_dec_eq val val_mono beta w a l ltac:(lia) ltac:(lia) ltac:(lia) Hlt).
        cbv beta in Hopt, Hnn', Hnn |- *. rewrite Ew in Hopt, Hnn', Hnn |- *.
        apply (edge_upper true a l) in Hopt; auto; [|lia|unfold n_up; lia].
        cbn [ele] in Hc. apply Qle_trans with (1 := Hc).
        apply (upper_mono _ (n_up t a)) in Hopt; [|apply Hns; auto|].
        2:{ assert (X := ncost_nonneg true a l ltac:(lia)). lra. }
        apply Qle_trans with (1 := Hopt). apply Qle_lteq. right.
        rewrite Hpe.
        assert (E : (ky + alpha * pu (map val w) (map val (dec a l)) - pot (dec a l) + ncost true a l
                 == ky + alpha * (pu (map val w) (map val (dec a l)) + step val beta a l) - pot a)%Q).
        { rewrite Qmult_plus_distr_r. lra. }
        rewrite E. reflexivity. }
    apply in_app_or in He1. destruct He1 as [He1|He1].
    - apply In_f_nedges in He1. destruct He1 as (l & Hl & Hp0 & Ee).
      destruct (HI2 _ (HS l Hp0)) as (p & Hp & q & kx & Hq & HFq & Hlx & Hgx & Hkx & Hfe & _).
      change (emb true (dec a l)) with (dec a l) in *.
      assert (El : look ps e = p) by (subst e; apply look_stored; auto).
      rewrite El. subst e. cbn [e_from e_cost fst snd andb negb gp_xs gp_cost].
      assert (Hld : l < dn) by lia.
      exists (rnd (q + f_ncost true a l))%Q, kx. cbn [gp_cost gp_xs]. rewrite Hq. cbn [fadd].
      split; [reflexivity|]. split; [apply edge_F; auto|]. split; [auto|]. split; [auto|]. split; [auto|]. split.
      + assert (Hadj := ncost_adjusted beta alpha inverted vs dn_pos val_mono beta_len true a l Ha Hld Hp0).
        change (emb true a) with a in Hadj. change (emb true (dec a l)) with (dec a l) in Hadj. cbv iota in Hadj.
        destruct (grid_last beta vs dn_pos val_0 beta_len _ Hgx) as (w & Hw & Ew). cbv beta in Ew.
        assert (Hwl := box_length _ _ Hw). fold b in Hwl. fold dn in Hwl.
        assert (Hle := P_dec_le val val_mono beta beta_nonneg w a l ltac:(lia) ltac:(lia) ltac:(lia)).
        assert (Hn1 := up_nonneg _ kx (dec a l) Hgx Hkx (box_dec _ _ l Ha)).
        assert (Hn2 := up_nonneg _ kx a Hgx Hkx Ha).
        cbv beta in Hfe, Hn1, Hn2 |- *. rewrite Ew in Hfe, Hn1, Hn2 |- *.
        apply (edge_lower true a l) in Hfe; auto; [|unfold n_up; lia].
        apply (lower_mono _ (n_up t a)) in Hfe; [|apply Hns; auto|].
        2:{ assert (X := ncost_nonneg true a l Hld). lra. }
        apply Qle_trans with (2 := Hfe). rewrite !(Qmult_comm (pw (1 - u) (n_up t a))).
        apply Qmult_le_compat_r; [|apply pw_nonneg; lra].
        assert (H : (alpha * pu (map val w) (map val a)
                <= alpha * (pu (map val w) (map val (dec a l)) + step val beta a l))%Q).
        { rewrite !(Qmult_comm alpha). apply Qmult_le_compat_r; auto. }
        rewrite Qmult_plus_distr_r in H. lra.
      + apply Hmin; auto. rewrite El. exact Hq.
    - cbn [negb] in He1. rewrite orb_false_r in He1. destruct (1 <? t)%Z eqn:E1; [|contradiction].
      destruct He1 as [<-|[]]. apply Z.ltb_lt in E1.
      destruct (HI1 E1 a Ha) as (p & Hp & q & kx & Hq & HFq & Hlx & Hgx & Hab & Hkx & Hfe & _).
      assert (Hnd0 := dn_nonneg _ kx a Hgx Hkx Hab).
      destruct Hab as (w & Hw & Ew & Hle).
      assert (El := look_stored ps (cfgof true a, false) (Fin 0) p Hp).
      rewrite El in *. cbn [e_from e_cost fst snd andb negb gp_xs gp_cost].
      exists (rnd (q + 0))%Q, kx. cbn [gp_cost gp_xs]. rewrite Hq. cbn [fadd].
      assert (Hq0 := r_nonneg _ _ _ _ R q HFq).
      split; [reflexivity|]. split; [apply (r_in _ _ _ _ R); lra|]. split; [auto|]. split; [auto|]. split; [auto|]. split.
      + cbv beta in Ew. assert (HP := P_ge val val_mono beta w a Hle).
        rewrite <- Ew in HP. cbv beta. rewrite HP, (rnd_zero q HFq).
        apply (lower_mono _ (n_up t a)) in Hfe; auto.
        apply Qle_trans with (2 := Hfe). apply Qle_lteq. right. ring.
      + apply Hmin; auto.
  Qed.

  Lemma f_up_step t : (1 <= t)%Z -> forall k S a ps, 1 <= k <= dn -> gbox a ->
    (forall l, k <= l -> nth l a 0 = 0) ->
    (forall l, 0 < nth l a 0 -> In (dec a l) S) ->
    FInvUp t ps S ->
    exists ps', hconfig t k true (cfgof true a) ps = Ok ps' /\ FInvUp t ps' (a :: S).
  Proof.
    intros Ht k S a ps Hk Ha Hz HS HI.
    assert (Hlen := box_length _ _ Ha). fold dn in Hlen.
    destruct (Z.eq_dec t 1) as [E1|E1]; [destruct (nonzero_dec beta vs dn_pos beta_len a) as [E0|Hnz]|].
    - assert (Ea := zero_of_all vs a Ha E0). subst t. exists (f_gupdate_paths rnd ps None (cfgof true a, true)). split.
      + unfold f_handle_config, f_find_immediate_predecessors.
        rewrite f_neighbour_edges_eq; auto.
        2:{ intros l Hl. apply in_seq in Hl. lia. }
        cbn [obind].
        replace (flat_map (f_nedge true a) (seq 0 k)) with (@nil edge).
        2:{ symmetry. generalize (seq 0 k). intros ls. induction ls as [|l ls IH]; cbn [flat_map]; auto.
            unfold f_nedge. rewrite E0. cbn. exact IH. }
        cbn [Z.ltb Z.compare Pos.compare Pos.compare_cont orb negb Z.eqb Pos.eqb andb].
        destruct (list_eq_dec _ _ _) as [_|Hne].
        * cbn [obind f_find_optimal_predecessor omap]. rewrite f_par_pick_pick. reflexivity.
        * exfalso. apply Hne. unfold GraphSearchWalk.cfgof, GraphSearchWalk.mkv, GraphSearchWalk.emb.
          cbn [ic_cfg]. rewrite Ea, (map_val_zero vs val_0). f_equal. rewrite d_dn, Nat2Z.id. reflexivity.
      + apply FInvUp_insert; auto. unfold GraphSearchWalk.emb. rewrite Ea. apply F_init.
    - apply f_up_step_pred; auto.
    - apply f_up_step_pred; auto. left. lia.
  Qed.

  Lemma f_dn_step t : (1 <= t)%Z -> is_fin (hit t bounds) -> forall k S a ps, 1 <= k <= dn -> gbox a ->
    (forall l, k <= l -> nth l a 0 = 0) ->
    (forall l, 0 < nth l a 0 -> In (dec a l) S) ->
    FInvDn t ps S ->
    exists ps', hconfig t k false (cfgof false a) ps = Ok ps' /\ FInvDn t ps' (a :: S).
  Proof.
    intros Ht Hfin k S a ps Hk Ha Hz HS HI.
    assert (Hlen := box_length _ _ Ha). fold dn in Hlen.
    destruct HI as [HI1 HI2]. set (v := emb false a).
    assert (Hv : gbox v) by (apply (emb_box vs false a); auto).
    assert (Hvl := box_length _ _ Hv). fold dn in Hvl.
    assert (HvS : list_sum v <= Ssum) by (apply list_sum_box; auto).
    destruct (HI1 v Hv) as (pu0 & Hpu0 & qu & ku & Hqu & HFu & Hlxu & Hgxu & Hkxu & Hfeu & Hoptu).
    destruct (f_handle_config_spec t k false a ps S (FDn t)) as (e & He1 & He2 & He3 & He4); auto.
    { intros _. exists pu0. exact Hpu0. }
    { destruct (nonzero_dec beta vs dn_pos beta_len a) as [E0|(l & Hl)].
      - eexists. split; [apply in_or_app; right|].
        + cbn [negb]. rewrite orb_true_r. left. reflexivity.
        + cbn [negb]. rewrite (look_stored _ _ _ pu0 Hpu0). unfold f_cand_cost. cbn [fst snd e_cost].
          rewrite Hqu. fold v.
          replace (map val v) with bounds; [destruct (hit t bounds); [exact I|contradiction]|].
          rewrite bounds_val. unfold v. rewrite (zero_of_all vs a Ha E0).
          unfold GraphSearchWalk.emb. fold b. unfold dn. rewrite vsub_zero. reflexivity.
      - destruct (HI2 _ (HS l Hl)) as (p & Hp & q & kx & Hq & _).
        exists (mkEdge (cfgof false (dec a l), false) (Fin (f_ncost false a l))). split; [apply in_or_app; left|].
        + apply In_f_nedges. exists l. repeat split; auto.
          destruct (lt_dec l k); auto. rewrite Hz in Hl by lia. lia.
        + rewrite (look_stored _ _ _ p Hp). unfold f_cand_cost. cbn [fst snd e_cost]. rewrite Hq. exact I. }
    rewrite He2. eexists. split; [reflexivity|]. unfold f_gupdate_paths.
    apply FInvDn_insert; [|split; auto]. fold v. fold v in He1, He4.
    cbn [negb] in He1, He4. rewrite orb_true_r in He1, He4.
    set (inact := mkEdge (cfgof false a, true) (hit t (map val v))) in *.
    assert (Hla : look ps inact = pu0) by (apply look_stored; exact Hpu0).
    assert (Hnu : Datatypes.S (n_up t v) <= n_dn t v) by (unfold n_up, n_dn; lia).
    assert (Hns : forall l, 0 < nth l a 0 -> l < dn -> n_dn t (emb false (dec a l)) + paid false <= n_dn t v).
    { intros l Hl Hld. destruct (emb_dec_down beta vs dn_pos beta_len a l Ha Hld Hl) as [Ed1 Ed2]. fold v in Ed1, Ed2.
      set (w := emb false (dec a l)) in *.
      assert (Es := list_sum_dec w l ltac:(lia)). rewrite <- Ed1 in Es.
      assert (Hw : list_sum w <= Ssum) by (apply list_sum_box; apply (emb_box vs false); apply box_dec; auto).
      unfold n_dn, paid, pays. cbn [andb negb orb]. destruct inverted; lia. }
    assert (Hmin : forall q0, gp_cost (look ps e) = Fin q0 -> forall qe, e_cost e = Fin qe ->
      forall ys ky, grid ys -> Z.of_nat (length ys) = t -> above v ys -> K ys = Fin ky ->
        (rnd (q0 + qe) <= pw (1 + u) (n_dn t v) * (ky - pot v))%Q).
    { intros q0 Hq0 qe Hqe ys ky Hgy Hly Hab Hky.
      assert (Hnn := dn_nonneg ys ky v Hgy Hky Hab).
      destruct Hab as (w & Hw & Ew & Hle).
      assert (Hwl := box_length _ _ Hw). fold b in Hwl. fold dn in Hwl.
      destruct (Forall2_le_split v w Hle) as [<-|(l & Hl & Hlt)].
      - (* the last configuration is v itself *)
        destruct ys as [|y0 ys0] eqn:Ey; [cbn in Hly; lia|]. rewrite <- Ey in *.
        assert (Hne : ys <> []) by (rewrite Ey; discriminate).
        destruct (exists_last Hne) as (zs & z & Ez). rewrite Ez in *. clear ys Ez Hne Ey y0 ys0.
        cbv beta in Ew. rewrite last_last in Ew. subst z.
        rewrite app_length in Hly. cbn in Hly.
        apply Forall_app in Hgy. destruct Hgy as [Hgz _].
        assert (E := K_snoc hit beta alpha vs dn_pos beta_len t zs (map val v) ltac:(lia)).
        rewrite Hky in E.
        destruct (K zs) as [kz|] eqn:Ekz; [|contradiction].
        specialize (Hoptu zs kz Hgz ltac:(lia) Ekz).
        specialize (He4 inact ltac:(apply in_or_app; right; left; reflexivity)).
        unfold f_cand_cost in He4. cbn [fst snd] in He4. rewrite Hla, Hq0, Hqe, Hqu in He4.
        cbn [inact e_cost] in He4. assert (HhF := hit_F t (map val v)).
        destruct (hit t (map val v)) as [h|]; [|contradiction].
        cbn [fadd ele] in He4. apply Qle_trans with (1 := He4).
        assert (Hn0 := up_nonneg zs kz v Hgz Ekz Hv).
        assert (N : near (n_up t v) h h) by (apply (near_exact rnd F u small R); [auto|reflexivity]).
        assert (X := add_upper _ _ qu h h ltac:(lia) Hn0 HFu N Hoptu).
        cbn [eadd eeq] in E. cbv beta in E, X.
        assert (E' : (kz + alpha * pu (last zs (repeat 0%Z (length (v_bound vs)))) (map val v) - pot v + h == ky - pot v)%Q)
          by lra.
        rewrite E' in X. apply (upper_mono _ (n_dn t v)) in X; auto.
      - (* from a larger configuration *)
        assert (Hp0 : 0 < nth l a 0).
        { apply (box_nth _ _ l) in Hw. fold b in Hw. unfold v in Hlt. unfold GraphSearchWalk.emb in Hlt. fold b in Hlt.
          rewrite vsub_nth in Hlt by auto. lia. }
        assert (Hld : l < dn) by lia.
        destruct (HI2 _ (HS l Hp0)) as (p & Hp & q & kx & Hq & HFq & _ & _ & _ & _ & _ & Hopt).
        assert (Hns' := Hns l Hp0 Hld).
        destruct (emb_dec_down beta vs dn_pos beta_len a l Ha Hld Hp0) as [Ed1 Ed2]. fold v in Ed1, Ed2.
        set (x := emb false (dec a l)) in *.
        assert (Hul : length x = dn) by (unfold x; apply box_length; apply (emb_box vs false); apply box_dec; auto).
        assert (Hab : above x ys).
        { exists w. repeat split; auto. apply Forall2_le_nth; [lia|]. intros j.
          destruct (Nat.eq_dec j l) as [->|Hj]; [lia|].
          assert (E : nth j x 0 = nth j v 0) by (rewrite Ed1; unfold dec; rewrite nth_update_other; auto).
          rewrite E. apply Forall2_le_nth'; auto. }
        specialize (Hopt ys ky Hgy Hly Hab Hky).
        assert (Hn1 := dn_nonneg ys ky x Hgy Hky Hab).
        assert (Hc : ele (Fin (rnd (q0 + qe))) (Fin (rnd (q + f_ncost false a l)))).
        { specialize (He4 (mkEdge (cfgof false (dec a l), false) (Fin (f_ncost false a l)))).
          unfold f_cand_cost in He4. cbn [fst snd e_cost] in He4.
          rewrite Hq0, Hqe, (look_stored _ _ _ p Hp), Hq in He4. apply He4.
          apply in_or_app; left. apply In_f_nedges. exists l. repeat split; auto.
          destruct (lt_dec l k); auto. rewrite Hz in Hp0 by lia. lia. }
        assert (Hadj := ncost_adjusted beta alpha inverted vs dn_pos val_mono beta_len false a l Ha Hld Hp0).
        cbv iota in Hadj. fold v x in Hadj.
        apply (edge_upper false a l) in Hopt; auto; [|apply n_dn_ge2].
        cbn [ele] in Hc. apply Qle_trans with (1 := Hc).
        assert (E' : (ky - pot x + ncost false a l == ky - pot v)%Q) by lra.
        rewrite E' in Hopt. apply (upper_mono _ (n_dn t v)) in Hopt; auto. }
    apply in_app_or in He1. destruct He1 as [He1|He1].
    - apply In_f_nedges in He1. destruct He1 as (l & Hl & Hp0 & Ee).
      assert (Hld : l < dn) by lia.
      destruct (HI2 _ (HS l Hp0)) as (p & Hp & q & kx & Hq & HFq & Hlx & Hgx & Hab & Hkx & Hfe & _).
      assert (El : look ps e = p) by (subst e; apply look_stored; auto).
      rewrite El. subst e. cbn [e_from e_cost fst snd andb negb gp_xs gp_cost].
      assert (Hns' := Hns l Hp0 Hld).
      destruct (emb_dec_down beta vs dn_pos beta_len a l Ha Hld Hp0) as [Ed1 Ed2]. fold v in Ed1, Ed2.
      set (x := emb false (dec a l)) in *.
      assert (Hn1 := dn_nonneg _ kx x Hgx Hkx Hab).
      destruct Hab as (w & Hw & Ew & Hle).
      assert (Habv : above v (gp_xs p)).
      { exists w. repeat split; auto.
        assert (Hul := Forall2_length_eq _ _ Hle).
        apply Forall2_le_nth; [apply box_length in Hw; fold b in Hw; fold dn in Hw; lia|]. intros j.
        apply (Forall2_le_nth' _ _ j) in Hle.
        destruct (Nat.eq_dec j l) as [->|Hj]; [lia|].
        assert (E : nth j x 0 = nth j v 0) by (rewrite Ed1; unfold dec; rewrite nth_update_other; auto).
        lia. }
      assert (Hn2 := dn_nonneg _ kx v Hgx Hkx Habv).
      exists (rnd (q + f_ncost false a l))%Q, kx. cbn [gp_cost gp_xs]. rewrite Hq. cbn [fadd].
      assert (Hadj := ncost_adjusted beta alpha inverted vs dn_pos val_mono beta_len false a l Ha Hld Hp0).
      cbv iota in Hadj. fold v x in Hadj.
      split; [reflexivity|]. split; [apply edge_F; auto|]. split; [auto|]. split; [auto|]. split; [auto|].
      split; [auto|]. split.
      + apply (edge_lower false a l) in Hfe; auto; [|apply n_dn_ge2].
        assert (E' : (kx - pot x + ncost false a l == kx - pot v)%Q) by lra.
        rewrite E' in Hfe. apply (lower_mono _ (n_dn t v)) in Hfe; auto.
      + intros ys ky Hgy Hly Hab Hky. rewrite El in Hmin. exact (Hmin q Hq _ eq_refl ys ky Hgy Hly Hab Hky).
    - destruct He1 as [<-|[]]. rewrite Hla in *.
      change (snd (e_from inact) && negb (snd (cfgof false a, false))) with true. cbv iota.
      change (ic_cfg (fst (cfgof false a, false))) with (map val v).
      cbn [inact e_cost] in Hmin |- *.
      unfold f_cand_cost in He3. cbn [fst snd inact e_cost] in He3. rewrite Hqu in He3.
      assert (HhF := hit_F t (map val v)).
      destruct (hit t (map val v)) as [h|] eqn:Eh; [|contradiction].
      assert (E := K_snoc hit beta alpha vs dn_pos beta_len t (gp_xs pu0) (map val v) Hlxu).
      rewrite Hkxu, Eh in E. cbn [eadd] in E.
      destruct (K (gp_xs pu0 ++ [map val v])) as [kx|] eqn:Ekx; [|contradiction].
      exists (rnd (qu + h))%Q, kx. cbn [gp_cost gp_xs]. rewrite Hqu. cbn [fadd].
      assert (A := r_nonneg _ _ _ _ R qu HFu). assert (B := r_nonneg _ _ _ _ R h HhF).
      assert (Hab : above v (gp_xs pu0 ++ [map val v])).
      { apply above_snoc. exists v. repeat split; auto. clear. induction v; constructor; auto. }
      assert (Hg' : grid (gp_xs pu0 ++ [map val v])).
      { apply Forall_app. split; auto. constructor; auto. exists v. auto. }
      split; [reflexivity|]. split; [apply (r_in _ _ _ _ R); lra|].
      split; [rewrite app_length; cbn; lia|]. split; [auto|]. split; [auto|]. split; [auto|]. split.
      + assert (Hn0 := up_nonneg _ ku v Hgxu Hkxu Hv).
        assert (N : near (n_up t v) h h) by (apply (near_exact rnd F u small R); [auto|reflexivity]).
        assert (X := add_lower _ _ qu h h ltac:(lia) Hn0 HFu N Hfeu).
        cbn [eeq] in E. cbv beta in E, X.
        assert (E' : (ku + alpha * pu (last (gp_xs pu0) (repeat 0%Z (length (v_bound vs)))) (map val v) - pot v + h
                   == kx - pot v)%Q) by lra.
        rewrite E' in X. apply (lower_mono _ (n_dn t v)) in X; auto.
        apply (dn_nonneg _ kx v Hg' Ekx Hab).
      + intros ys ky Hgy Hly Haby Hky. apply (Hmin qu Hqu h eq_refl ys ky); auto.
  Qed.
End FloatDP.
